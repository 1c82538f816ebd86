(** C56: what CacheDBM guarantees to concurrent threads. *)
From Coq Require Import List NArith ZArith Bool Lia Arith Permutation.
Import ListNotations.
From Verif Require Import Bytes CodecModel DbmModel StatusModel LinkedModel LinkedProofs Stamps HashMutexModel HashMutexProps HashUtilModel CacheModel CacheProofs CacheProps CacheConcModel CacheConcProofs.
Local Open Scope N_scope.

Section C56.
  Variable hash : bytes -> N.
  Variable buckets : N -> N.
  Hypothesis buckets_pos : forall c, buckets c <> 0.
  Context {S : Type}.
  Variable n : nat.
  Notation grp := (slot_of hash).
  Notation spec := (spec S). Notation E := (sp_E S).
  Notation run := (run hash buckets n). Notation step := (step hash buckets n). Notation arun := (arun hash buckets).
  Notation cact := (cact hash). Notation crel := (crel hash buckets S). Notation ginv := (ginv hash buckets n).

  Lemma run_ok cap mcap st tr (y : sys S) : run (init buckets S cap mcap) tr y -> exists A a, arun (ainit cap mcap st) tr a /\ ginv y A a.
  Proof. intros R. eapply (run_inv hash buckets buckets_pos n); [apply (init_ginv hash buckets buckets_pos)|exact R]. Qed.

  (** What is in the memory, as in C12. *)
  Definition holds (c : cache) (sp : spec) : Prop := exists l,
    cache_items c = Some l /\ in_order hash (E sp) (map fst l) /\ (forall k v, In (k, v) l <-> exists t, E sp k = Some (v, t)) /\
    cache_count c = N.of_nat (length l) /\ cache_eff c = sizes l /\ (forall k v, In (k, v) l -> sp_M S sp k = Some v) /\
    forall g l', in_slot hash (E sp) g l' -> N.of_nat (length l') <= sp_cap S sp / 32 + 1.
  Lemma crel_holds c sp : crel c sp -> holds c sp.
  Proof.
    intros R. exists (all_items c). split; [eapply (items_ok hash buckets buckets_pos S); exact R|]. split; [eapply (all_order hash buckets buckets_pos S); exact R|]. destruct (count_ok hash buckets buckets_pos S c sp R) as [X1 X2]. split; [|split; [exact X1|split; [exact X2|split]]].
    - intros k v. unfold all_items. rewrite (in_all hash buckets buckets_pos S c sp k v (N.to_nat NUM_CACHE_SLOTS) 0 R eq_refl). split; [intros [_ X]; exact X|intros X; split; [lia|exact X]].
    - intros k v H. unfold all_items in H. apply (in_all hash buckets buckets_pos S c sp k v (N.to_nat NUM_CACHE_SLOTS) 0 R eq_refl) in H. destruct H as [_ [t H]]. destruct R as (_ & _ & _ & C4). eapply C4; exact H.
    - intros g l' I'. destruct l' as [|[k v] l1]; [cbn; lia|]. assert (Hg : g < 32) by (destruct I' as [_ I']; assert (Y := proj1 (I' k v) (or_introl eq_refl)); destruct Y as [<- _]; apply (grp_lt hash)).
      destruct (items_at_ok hash buckets S c sp g R Hg) as (_ & T & _ & LE). assert (I := trip_slot hash _ _ _ _ T). assert (P : Permutation (items_at c g) ((k, v) :: l1)). { apply NoDup_Permutation; [apply (NoDup_map_inv fst), I|apply (NoDup_map_inv fst), I'|]. intros [k1 v1]. rewrite (proj2 I), (proj2 I'). reflexivity. }
      rewrite <- (Permutation_length P). unfold slot_cap in LE. change NUM_CACHE_SLOTS with 32 in LE. generalize dependent (sp_cap S sp / 32 + 1). intros; lia.
  Qed.

  (** * Specification *)
  (** Process and ProcessMulti as a whole. *)
  Definition whole_call (c : ccall S) (sp sp' : spec) (x' : loc S) : Prop :=
    match c with
    | KProcess k p w _ s => s_call hash buckets S (with_st S sp s) k p w (with_st S sp' (x_s x'))
    | KMulti l w _ s => s_calls hash buckets S w (with_st S sp s) l (with_st S sp' (x_s x'))
    | _ => False
    end.
  Definition by_slot (c : ccall S) : Prop := match c with KFirst _ _ _ _ | KEach _ _ _ _ _ | KCount _ | KEff _ => True | _ => False end.
  Notation asys := (@asys S).
  Inductive lstep (a : asys) : ev S -> asys -> Prop :=
  | ls_call t c : a_th a t = AIdle -> lstep a (ECall t c) (mkA (a_sp a) (aupd (a_th a) t (ACalled c)))
  | ls_whole t c sp' x' : a_th a t = ACalled c -> whole_call c (a_sp a) sp' x' -> lstep a ETau (mkA sp' (aupd (a_th a) t (ADone x')))
  | ls_begin t c : a_th a t = ACalled c -> by_slot c -> lstep a ETau (mkA (a_sp a) (aupd (a_th a) t (ARun (prog_of hash c) (start_loc c))))
  | ls_sec t l k x sp' x' : a_th a t = ARun (Sec l k) x -> does_sec hash buckets (a_sp a) x l sp' x' -> lstep a ETau (mkA sp' (aupd (a_th a) t (ARun (k x') x')))
  | ls_local t f k x : a_th a t = ARun (Local f k) x -> lstep a ETau (mkA (a_sp a) (aupd (a_th a) t (ARun k (f x))))
  | ls_peek t i k x : a_th a t = ARun (Peek i k) x -> lstep a ETau (mkA (a_sp a) (aupd (a_th a) t (ARun k x)))
  | ls_end t x : a_th a t = ARun Ret x -> lstep a ETau (mkA (a_sp a) (aupd (a_th a) t (ADone x)))
  | ls_clear t s sp' : a_th a t = ACalled (KClear s) -> (forall u p x, a_th a u <> ARun p x) ->
      s_op hash buckets S (a_sp a) (OClear S) true sp' -> lstep a ETau (mkA sp' (aupd (a_th a) t (ADone (loc0 s))))
  | ls_rebuild t cap mcap s sp' : a_th a t = ACalled (KRebuild cap mcap s) -> (forall u p x, a_th a u <> ARun p x) ->
      s_op hash buckets S (a_sp a) (ORebuild S cap mcap) true sp' -> lstep a ETau (mkA sp' (aupd (a_th a) t (ADone (loc0 s))))
  | ls_ret t x : a_th a t = ADone x -> lstep a (ERet t x) (mkA (a_sp a) (aupd (a_th a) t AIdle)).
  Inductive lrun : asys -> list (ev S) -> asys -> Prop :=
  | lrun_nil a : lrun a [] a
  | lrun_tau a a1 tr a2 : lrun a tr a1 -> lstep a1 ETau a2 -> lrun a tr a2
  | lrun_ev a a1 tr e a2 : lrun a tr a1 -> e <> ETau -> lstep a1 e a2 -> lrun a (tr ++ [e]) a2.
  (** Executions of sections, seen as such executions. *)
  Inductive trel : athr (S := S) -> athr (S := S) -> Prop :=
  | tr_same x : trel x x
  | tr_pre c : excl_of hash buckets c = None -> ~ by_slot c -> trel (ARun (prog_of hash c) (start_loc c)) (ACalled c)
  | tr_post x : trel (ARun Ret x) (ADone x).
  Definition rel (a b : asys) : Prop := a_sp b = a_sp a /\ forall t, trel (a_th a t) (a_th b t).
  Lemma rel_upd a b t x y sp : rel a b -> trel x y -> rel (mkA sp (aupd (a_th a) t x)) (mkA sp (aupd (a_th b) t y)).
  Proof. intros [_ R] T. split; [reflexivity|]. intros u. cbn. unfold aupd. destruct (Nat.eqb u t); [exact T|apply R]. Qed.
  Lemma rel_left a b t x : rel a b -> trel x (a_th b t) -> rel (mkA (a_sp a) (aupd (a_th a) t x)) b.
  Proof. intros [R0 R] T. split; [exact R0|]. intros u. cbn. unfold aupd. destruct (Nat.eqb_spec u t) as [->|]; [exact T|apply R]. Qed.
  Lemma multi_sec w (mv : bytes -> bool) l : forall sp x sp' x', does_sec hash buckets sp x (map (fun kp => (grp (fst kp), AProc (fst kp) (snd kp) w (mv (fst kp)))) l) sp' x' ->
    s_calls hash buckets S w (with_st S sp (x_s x)) l (with_st S sp' (x_s x')).
  Proof.
    assert (ID : forall sp, with_st S sp (sp_st S sp) = sp) by (intros sp; destruct sp; reflexivity).
    induction l as [|[k p] l IH]; intros sp x sp' x' D; inversion D as [|? ? ? ? ? ? ? ? ? D1 D2]; subst; [constructor|]. cbn [fst snd does_act] in D1. destruct D1 as [D1 ->]. apply IH in D2. cbn [x_s] in D2. rewrite ID in D2. econstructor; eauto.
  Qed.
  Lemma astep_lstep a e a' b : rel a b -> astep hash buckets a e a' -> (exists b', lstep b e b' /\ rel a' b') \/ (e = ETau /\ rel a' b).
  Proof.
    intros R ST. pose proof R as [R0 RT].
    destruct ST as [t c Et|t c Et EX|t l k x sp' x' Et D|t f k x Et|t i k x Et|t x Et|t s sp' Et NR SO|t cap mcap s sp' Et NR SO|t x Et]; pose proof (RT t) as Tt; rewrite Et in Tt.
    - left. inversion Tt; subst. eexists. split; [apply ls_call; congruence|]. rewrite R0. apply rel_upd; [exact R|constructor].
    - assert (BT : a_th b t = ACalled c) by (inversion Tt; congruence). assert (BS : by_slot c \/ ~ by_slot c) by (destruct c; cbn; auto). destruct BS as [BS|BS].
      + left. eexists. split; [apply ls_begin; eauto|]. rewrite R0. apply rel_upd; [exact R|constructor].
      + right. split; [reflexivity|]. apply rel_left; [exact R|]. rewrite BT. constructor; assumption.
    - left. remember (a_th b t) as bt eqn:EB. remember (ARun (Sec l k) x) as at_ eqn:EA. destruct Tt as [z|c EX NB|z].
      + subst z. eexists. split; [eapply ls_sec; [symmetry; exact EB|rewrite R0; exact D]|]. apply rel_upd; [exact R|constructor].
      + injection EA as EP Ex. destruct c; cbn in NB; try (exfalso; apply NB; exact I); try discriminate EX; cbn [prog_of start_loc] in EP, Ex; injection EP as <- <-.
        * inversion D as [|? ? ? ? ? ? ? ? ? D1 D2]; subst. inversion D2; subst. destruct D1 as [D1 ->]. eexists. split; [eapply ls_whole; [symmetry; exact EB|]|apply rel_upd; [exact R|constructor]]. cbn [whole_call x_s]. rewrite R0. destruct sp'; exact D1.
        * apply multi_sec in D. rewrite <- Ex in D. eexists. split; [eapply ls_whole; [symmetry; exact EB|]|apply rel_upd; [exact R|constructor]]. cbn [whole_call]. rewrite R0. exact D.
      + discriminate EA.
    - left. remember (a_th b t) as bt eqn:EB. remember (ARun (Local f k) x) as at_ eqn:EA. destruct Tt as [z|c EX NB|z]; [|destruct c; cbn in NB; try (exfalso; apply NB; exact I); discriminate|discriminate]. subst z. eexists. split; [eapply ls_local; symmetry; exact EB|]. rewrite R0. apply rel_upd; [exact R|constructor].
    - left. remember (a_th b t) as bt eqn:EB. remember (ARun (Peek i k) x) as at_ eqn:EA. destruct Tt as [z|c EX NB|z]; [|destruct c; cbn in NB; try (exfalso; apply NB; exact I); discriminate|discriminate]. subst z. eexists. split; [eapply ls_peek; symmetry; exact EB|]. rewrite R0. apply rel_upd; [exact R|constructor].
    - remember (a_th b t) as bt eqn:EB. remember (ARun Ret x) as at_ eqn:EA. destruct Tt as [z|c EX NB|z].
      + subst z. left. eexists. split; [eapply ls_end; symmetry; exact EB|]. rewrite R0. apply rel_upd; [exact R|constructor].
      + destruct c; cbn in NB; try (exfalso; apply NB; exact I); discriminate.
      + injection EA as ->. right. split; [reflexivity|]. apply rel_left; [exact R|]. rewrite <- EB. constructor.
    - assert (NB : forall u p x, a_th b u <> ARun p x) by (intros u p x X; pose proof (RT u) as Tu; rewrite X in Tu; inversion Tu as [z E1 E2| |]; subst; eapply NR; eauto). left. assert (BT : a_th b t = ACalled (KClear s)) by (inversion Tt; congruence). eexists. split; [eapply ls_clear; [exact BT|exact NB|rewrite R0; exact SO]|]. apply rel_upd; [exact R|constructor].
    - assert (NB : forall u p x, a_th b u <> ARun p x) by (intros u p x X; pose proof (RT u) as Tu; rewrite X in Tu; inversion Tu as [z E1 E2| |]; subst; eapply NR; eauto). left. assert (BT : a_th b t = ACalled (KRebuild cap mcap s)) by (inversion Tt; congruence). eexists. split; [eapply ls_rebuild; [exact BT|exact NB|rewrite R0; exact SO]|]. apply rel_upd; [exact R|constructor].
    - left. inversion Tt; subst. eexists. split; [apply ls_ret; congruence|]. rewrite R0. apply rel_upd; [exact R|constructor].
  Qed.
  Lemma arun_lrun a0 tr a : arun a0 tr a -> exists b, lrun a0 tr b /\ rel a b.
  Proof.
    intros R. induction R as [a|a a1 tr a2 R IH ST|a a1 tr e a2 R IH NE ST].
    - exists a. split; [constructor|]. split; [reflexivity|constructor].
    - destruct IH as (b & L & RB). destruct (astep_lstep _ _ _ _ RB ST) as [(b' & L' & RB')|[_ RB']]; [exists b'; split; [eapply lrun_tau; eauto|exact RB']|exists b; auto].
    - destruct IH as (b & L & RB). destruct (astep_lstep _ _ _ _ RB ST) as [(b' & L' & RB')|[X _]]; [exists b'; split; [eapply lrun_ev; eauto|exact RB']|congruence].
  Qed.

  (** Whatever the interleaving of any number of threads: the calls and their results are those of an execution in which Process and
      ProcessMulti take effect at one moment as a whole on the cache of C12, Clear and Rebuild while no other call runs, and the others
      slot by slot; and whenever no call holds the lock, the memory is what the records are. *)
  Theorem C56_linearizable cap mcap st tr (y : sys S) : run (init buckets S cap mcap) tr y ->
    exists a, lrun (ainit cap mcap st) tr a /\ (exists keys, in_order hash (E (a_sp a)) keys) /\ ((forall t, main_of (y_pc y t) = None) -> holds (y_c y) (a_sp a)).
  Proof.
    intros R. destruct (run_ok cap mcap st tr y R) as (A & a & AR & G). destruct (arun_lrun _ _ _ AR) as (b & L & [RB _]). exists b. rewrite RB. split; [exact L|]. split; [eexists; eapply (all_order hash buckets buckets_pos S); apply (g_rel _ _ _ _ _ _ G)|]. intros Q. apply crel_holds.
    apply (crel_ext hash buckets S A); [apply (g_rel _ _ _ _ _ _ G)|apply (g_cap _ _ _ _ _ _ G)|apply (g_cap _ _ _ _ _ _ G)|]. intros i _. apply (g_free _ _ _ _ _ _ G). intros t B. specialize (Q t). destruct (y_pc y t); cbn in *; try contradiction; discriminate.
  Qed.
  (** No undefined behaviour. *)
  Theorem C56_defined (st : S) cap mcap tr (y : sys S) t : run (init buckets S cap mcap) tr y -> cact (y_c y) (y_pc y t) <> UB.
  Proof. intros R. destruct (run_ok cap mcap st tr y R) as (A & a & _ & G). eapply (act_defined hash buckets buckets_pos n); exact G. Qed.

  (** * Races *)
  (** Two threads are about to access the memory of the same slot, one of them writing. *)
  Definition race (y : sys S) : Prop := exists t u i b, t <> u /\ access (y_pc y t) i true /\ access (y_pc y u) i b.
  (** The only access without its lock is the read of the number of records before ProcessEach as writer copies the keys. *)
  Theorem C56_race (st : S) cap mcap tr (y : sys S) t u i b : run (init buckets S cap mcap) tr y -> t <> u -> access (y_pc y t) i true -> access (y_pc y u) i b ->
    exists k x, y_pc y u = PGo (Peek i k) x.
  Proof.
    intros R NE A1 A2. destruct (run_ok cap mcap st tr y R) as (A & a & _ & G).
    pose proof (g_main _ _ _ _ _ _ G t u) as MA. pose proof (g_held _ _ _ _ _ _ G t u i NE) as HE. pose proof (g_thr _ _ _ _ _ _ G t) as T1. pose proof (g_thr _ _ _ _ _ _ G u) as T2.
    remember (y_pc y t) as p1 eqn:E1. remember (y_pc y u) as p2 eqn:E2. remember true as w eqn:EW. destruct A1 as [l k x i ac r|i k x|c f i]; [| discriminate|].
    - destruct A2 as [l2 k2 x2 i ac2 r2|i k2 x2|c2 f2 i]; [|eauto|].
      + exfalso. cbn in T1, T2. destruct T1 as (_ & _ & _ & _ & _ & I1 & _). destruct T2 as (_ & _ & _ & _ & _ & I2 & _). apply HE; [apply I1; left; reflexivity|apply I2; left; reflexivity].
      + destruct (MA MS MX NE eq_refl eq_refl) as [_ X]. discriminate.
    - destruct (main_of p2) as [m|] eqn:M2; [destruct (MA MX m NE eq_refl eq_refl) as [X _]; discriminate|]. destruct A2; discriminate.
  Qed.
  (** Programs without that read. *)
  Inductive nopeek : prog S -> Prop :=
  | np_ret : nopeek Ret
  | np_sec l k : (forall x, nopeek (k x)) -> nopeek (Sec l k)
  | np_local f k : nopeek k -> nopeek (Local f k).
  Definition np_pc (p : pc S) : Prop :=
    match p with
    | PMain c => forall p mv noop s, c <> KEach p true mv noop s
    | PGo p _ => nopeek p
    | PLock _ k _ _ _ | PBody _ k _ _ | PUn k _ _ => forall x, nopeek (k x)
    | _ => True
    end.
  Lemma np_first p w mv m : forall i, nopeek (first_from m i p w mv).
  Proof. induction m as [|m IH]; intros i; cbn; [constructor|]. destruct w; constructor; intros x; [destruct (x_keys x); [apply IH|constructor; intros; constructor]|destruct (x_hit x); [constructor|apply IH]]. Qed.
  Lemma np_each p mv rest m : nopeek rest -> forall i, nopeek (each_from m i p false mv rest).
  Proof. intros H. induction m as [|m IH]; intros i; cbn; [exact H|]. constructor. intros. apply IH. Qed.
  Lemma np_sum a m : forall i, nopeek (sum_prog a m i).
  Proof. induction m as [|m IH]; intros i; cbn; [constructor|]. constructor. intros. apply IH. Qed.
  Lemma np_prog c : (forall p mv noop s, c <> KEach p true mv noop s) -> nopeek (prog_of hash c).
  Proof.
    intros H. destruct c as [k p w mv s|l w mv s|p w mv s|p w mv noop s|s|s|s|cap mcap s]; cbn [prog_of].
    - constructor. constructor.
    - constructor. constructor.
    - apply np_first.
    - destruct w; [exfalso; eapply H; reflexivity|]. constructor. apply np_each. repeat constructor.
    - apply np_sum.
    - apply np_sum.
    - constructor.
    - constructor.
  Qed.
  Definition no_writer_each (e : ev S) : Prop := match e with ECall _ (KEach _ true _ _ _) => False | _ => True end.
  (** So calls other than ProcessEach as writer never race. *)
  Theorem C56_no_race (st : S) cap mcap tr (y : sys S) : run (init buckets S cap mcap) tr y -> Forall no_writer_each tr -> ~ race y.
  Proof.
    intros R FA. assert (NP : forall t, np_pc (y_pc y t)).
    { remember (init buckets S cap mcap) as y0 eqn:E0. clear st. revert E0 FA. induction R as [y|y y1 tr y2 R IH ST|y y1 tr e y2 R IH NE ST]; intros E0 FA; subst.
      - intros t. exact I.
      - specialize (IH eq_refl FA). intros u. inversion ST as [| t c PCt FR| t l k x got j todo PCt FR|t c' p' C|]; subst; cbn [y_pc]; unfold upd; (destruct (Nat.eqb_spec u t) as [->|]; [|apply IH]); pose proof (IH t) as T.
        + rewrite PCt in T. cbn in T. unfold start. destruct (excl_of hash buckets c); [exact I|]. cbn. apply np_prog, T.
        + rewrite PCt in T. exact T.
        + destruct (y_pc y1 t) as [|ca|p x|l k x got todo|l k x r|k x todo|ca f|x]; cbn [CacheConcModel.cact np_pc] in *; try discriminate.
          * destruct p; injection C as <- <-; cbn; inversion T; auto.
          * destruct todo; [|discriminate]. injection C as <- <-. exact T.
          * destruct r as [|[i ac] r]; [injection C as <- <-; exact T|]. destruct (exec_act hash ac (c_slots (y_c y1) i) x) as [[s' x']|]; [|discriminate]. injection C as <- <-. exact T.
          * destruct todo; injection C as <- <-; cbn; auto.
          * destruct (f (y_c y1)); [|discriminate]. injection C as <- <-. exact I.
      - apply Forall_app in FA. destruct FA as [F1 F2]. specialize (IH eq_refl F1). inversion F2 as [|? ? F3 _]; subst. intros u. inversion ST as [t c Ht PCt|?|?|?|t x PCt]; subst; try congruence; cbn [y_pc]; unfold upd; (destruct (Nat.eqb_spec u t) as [->|]; [|apply IH]); [|exact I].
        cbn. intros p mv noop s ->. exact F3. }
    intros (t & u & i & b & NE & A1 & A2). destruct (C56_race st cap mcap tr y t u i b R NE A1 A2) as (k & x & EQ). specialize (NP u). rewrite EQ in NP. cbn in NP. inversion NP.
  Qed.

  (** What the accesses above leave out is neither changed nor looked at. *)
  Theorem C56_writes c (p : pc S) c' p' i : cact c p = Next c' p' -> ~ access p i true -> c_slots c' i = c_slots c i.
  Proof.
    intros C NA. destruct p as [|ca|p x|l k x got todo|l k x r|k x todo|ca f|x]; cbn [CacheConcModel.cact] in C; try discriminate.
    - destruct p; injection C as <- <-; reflexivity.
    - destruct todo; [|discriminate]. injection C as <- <-. reflexivity.
    - destruct r as [|[j ac] r]; [injection C as <- <-; reflexivity|]. destruct (exec_act hash ac (c_slots c j) x) as [[s' x']|]; [|discriminate]. injection C as <- <-. rewrite slot_at. destruct (N.eqb_spec i j) as [->|]; [exfalso; apply NA; constructor|reflexivity].
    - destruct todo; injection C as <- <-; reflexivity.
    - exfalso. apply NA. constructor.
  Qed.
  Theorem C56_reads c d (p : pc S) c' p' : (forall o f, p <> PExcl o f) -> (forall i b, access p i b -> c_slots c i = c_slots d i) -> cact c p = Next c' p' ->
    exists d', cact d p = Next d' p' /\ forall i, access p i true -> c_slots d' i = c_slots c' i.
  Proof.
    intros NX EQ C. destruct p as [|ca|p x|l k x got todo|l k x r|k x todo|ca f|x]; cbn [CacheConcModel.cact] in *; try discriminate.
    - destruct p; injection C as <- <-; eexists; (split; [reflexivity|]); intros j AC; inversion AC.
    - destruct todo; [|discriminate]. injection C as <- <-. eexists; (split; [reflexivity|]); intros j AC; inversion AC.
    - destruct r as [|[j ac] r]; [injection C as <- <-; eexists; (split; [reflexivity|]); intros j AC; inversion AC|]. rewrite <- (EQ j true) by constructor. destruct (exec_act hash ac (c_slots c j) x) as [[s' x']|]; [|discriminate]. injection C as <- <-. eexists. split; [reflexivity|]. intros q AC. inversion AC; subst. rewrite !slot_at, N.eqb_refl. reflexivity.
    - destruct todo; injection C as <- <-; eexists; (split; [reflexivity|]); intros j AC; inversion AC.
    - exfalso. eapply NX. reflexivity.
  Qed.

  (** * Progress *)
  Definition moves (y : sys S) : Prop := exists e y', (forall u c, e <> ECall u c) /\ step y e y'.
  Lemma can_act (y : sys S) A a t : ginv y A a -> match y_pc y t with PIdle | PMain _ | PLock _ _ _ _ (_ :: _) => False | _ => True end -> moves y.
  Proof.
    intros G H. pose proof (act_defined hash buckets buckets_pos n y A a t G) as ND. destruct (cact (y_c y) (y_pc y t)) as [| |c' p'] eqn:C; [|congruence|do 2 eexists; split; [|eapply st_act; exact C]; discriminate].
    destruct (y_pc y t) as [|ca|p x|l k x got todo|l k x r|k x todo|ca f|x] eqn:PCt; try contradiction; cbn in C; try discriminate.
    - destruct p; discriminate.
    - destruct todo; [discriminate|contradiction].
    - destruct r as [|[i ac] r]; [discriminate|]. destruct (exec_act hash ac (c_slots (y_c y) i) x) as [[? ?]|]; discriminate.
    - destruct todo; discriminate.
    - destruct (f (y_c y)); discriminate.
    - do 2 eexists. split; [|eapply st_ret; exact PCt]. discriminate.
  Qed.
  Lemma search (P : nat -> Prop) : (forall u, P u \/ ~ P u) -> forall m, (exists u, (u < m)%nat /\ P u) \/ forall u, (u < m)%nat -> ~ P u.
  Proof.
    intros D. induction m as [|m [(u & H1 & H2)|H]]; [right; lia|left; exists u; split; [lia|exact H2]|]. destruct (D m) as [X|X]; [left; exists m; split; [lia|exact X]|]. right. intros u Hu. destruct (Nat.eq_dec u m) as [->|]; [exact X|apply H; lia].
  Qed.
  Lemma asc_split (a : list N) j b x : asc (a ++ j :: b) -> In x a -> x < j.
  Proof.
    induction a as [|z a IH]; intros H Hx; [destruct Hx|]. cbn [app] in H. apply Sorted.StronglySorted_inv in H. destruct H as [H1 H2]. destruct Hx as [->|Hx]; [|auto]. rewrite Forall_forall in H2. apply H2. apply in_or_app. cbn. auto.
  Qed.
  Lemma lock_moves (y : sys S) A a : ginv y A a -> forall m t l k x got j todo, y_pc y t = PLock l k x got (j :: todo) -> (N.to_nat (32 - j) <= m)%nat -> moves y.
  Proof.
    intros G. induction m as [|m IH]; intros t l k x got j todo PCt Hm.
    - exfalso. pose proof (g_thr _ _ _ _ _ _ G t) as T. rewrite PCt in T. cbn in T. destruct T as (_ & W & GT). inversion W as [|? ? F _| |]; subst. assert (In j (sec_slots l)) as Ij by (rewrite <- GT; apply in_or_app; cbn; auto). apply slots_in, in_map_iff in Ij. destruct Ij as (e & <- & He). rewrite Forall_forall in F. destruct (F e He) as [F1 _]. lia.
    - destruct (search (fun u => u <> t /\ In j (slots_held (y_pc y u)))) with (m := n) as [(u & Hu & NU & HJ)|FR].
      { intros u. destruct (Nat.eq_dec u t) as [->|NU]; [right; intros [X _]; congruence|]. destruct (in_dec N.eq_dec j (slots_held (y_pc y u))) as [I|I]; [left; auto|right; intros [_ X]; auto]. }
      + destruct (y_pc y u) as [|ca|p2 x2|l2 k2 x2 got2 [|j2 todo2]|l2 k2 x2 r2|k2 x2 todo2|ca f|x2] eqn:PCu; try (cbn in HJ; contradiction); try (apply (can_act y A a u G); rewrite PCu; exact I).
        apply (IH u _ _ _ _ _ _ PCu). assert (j < j2). { cbn in HJ. pose proof (g_thr _ _ _ _ _ _ G u) as T. rewrite PCu in T. cbn in T. destruct T as (_ & _ & GT). apply (asc_split got2 j2 todo2 j); [rewrite GT; apply slotset_asc|exact HJ]. } lia.
      + do 2 eexists. split; [|eapply st_slot; [exact PCt|]]; [discriminate|]. intros u NU HJ. destruct (Nat.lt_ge_cases u n) as [L|L]; [apply (FR u L); auto|]. rewrite (g_fin _ _ _ _ _ _ G u L) in HJ. exact HJ.
  Qed.
  (** Nobody waits for ever for the others: whenever a call is running, some thread can take a step. *)
  Theorem C56_no_deadlock (st : S) cap mcap tr (y : sys S) t : run (init buckets S cap mcap) tr y -> y_pc y t <> PIdle -> moves y.
  Proof.
    intros R NI. destruct (run_ok cap mcap st tr y R) as (A & a & _ & G).
    assert (HOLD : forall u, main_of (y_pc y u) <> None -> moves y).
    { intros u M. destruct (y_pc y u) as [|ca|p x|l k x got [|j todo]|l k x r|k x todo|ca f|x] eqn:PCu; try (cbn in M; congruence); try (apply (can_act y A a u G); rewrite PCu; exact I). eapply (lock_moves y A a G); [exact PCu|reflexivity]. }
    destruct (main_of (y_pc y t)) as [m|] eqn:M; [apply (HOLD t); congruence|]. destruct (y_pc y t) as [|ca|p x|l k x got todo|l k x r|k x todo|ca f|x] eqn:PCt; try discriminate; [congruence| |apply (can_act y A a t G); rewrite PCt; exact I].
    destruct (search (fun u => main_of (y_pc y u) <> None)) with (m := n) as [(u & Hu & HM)|FR].
    { intros u. destruct (main_of (y_pc y u)); [left; discriminate|right; auto]. }
    - apply (HOLD u HM).
    - do 2 eexists. split; [|eapply st_main; [exact PCt|]]; [discriminate|]. intros u b NU HM. exfalso. destruct (Nat.lt_ge_cases u n) as [L|L]; [apply (FR u L); congruence|]. rewrite (g_fin _ _ _ _ _ _ G u L) in HM. discriminate.
  Qed.

  (** * Calls whose sections follow each other *)
  Inductive does_prog : spec -> loc S -> prog S -> spec -> loc S -> Prop :=
  | dp_ret sp x : does_prog sp x Ret sp x
  | dp_sec sp x l k sp1 x1 sp2 x2 : does_sec hash buckets sp x l sp1 x1 -> does_prog sp1 x1 (k x1) sp2 x2 -> does_prog sp x (Sec l k) sp2 x2
  | dp_local sp x f k sp2 x2 : does_prog sp (f x) k sp2 x2 -> does_prog sp x (Local f k) sp2 x2
  | dp_peek sp x i k sp2 x2 : does_prog sp x k sp2 x2 -> does_prog sp x (Peek i k) sp2 x2.
  Notation wst := (with_st S).
  Lemma wst_id sp : wst sp (sp_st S sp) = sp. Proof. destruct sp; reflexivity. Qed.
  Lemma one_inv i (a : act S) (sp : spec) (x : loc S) sp' x' : does_sec hash buckets sp x [(i, a)] sp' x' -> does_act hash buckets i a sp x sp' x'.
  Proof. intros D. inversion D as [|? ? ? ? ? ? ? ? ? D1 D2]; subst. inversion D2; subst. exact D1. Qed.
  Lemma local_inv sp x f k sp' x' : does_prog sp x (Local f k) sp' x' -> does_prog sp (f x) k sp' x'.
  Proof. intros D. inversion D; subst. assumption. Qed.
  Lemma ret_inv sp x sp' x' : does_prog sp x Ret sp' x' -> sp' = sp /\ x' = x.
  Proof. intros D. inversion D; subst. auto. Qed.
  (** The first key in the order of the slots. *)
  Lemma first_head sp i k ks keys0 : in_order hash (E sp) keys0 -> slot_keys hash sp i (k :: ks) -> (forall x, E sp x <> None -> i <= grp x) -> exists keys, in_order hash (E sp) (k :: keys).
  Proof.
    intros O KS LO. pose proof O as (ND & IN & OR). destruct KS as (ND2 & IN2 & OR2). destruct (proj1 (IN2 k) (or_introl eq_refl)) as [GK EK].
    destruct keys0 as [|h t]; [exfalso; apply (proj2 (IN k) EK)|]. destruct (list_eq_dec N.eq_dec h k) as [->|NE]; [eauto|]. exfalso.
    assert (Hk : In k t) by (destruct (proj2 (IN k) EK); [congruence|assumption]). assert (EH : E sp h <> None) by (apply IN; left; reflexivity).
    destruct (E sp h) as [xh|] eqn:XH; [|congruence]. destruct (E sp k) as [xk|] eqn:XK; [|congruence]. pose proof (LO h ltac:(congruence)) as GH. destruct (OR [] h t k xh xk eq_refl Hk XH XK) as [G|[G T]]; [lia|].
    assert (Hh : In h (k :: ks)) by (apply IN2; split; congruence). destruct Hh as [Hh|Hh]; [congruence|]. pose proof (OR2 [] k ks h xk xh eq_refl Hh XK XH). lia.
  Qed.
  Lemma first_prog p w mv m : forall i sp x sp' x' keys0, in_order hash (E sp) keys0 -> i + N.of_nat m = 32 -> (forall k, E sp k <> None -> i <= grp k) -> x_hit x = false ->
    does_prog sp x (first_from m i p w mv) sp' x' -> s_op hash buckets S (wst sp (x_s x)) (OFirst S p w mv) (x_hit x') (wst sp' (x_s x')).
  Proof.
    induction m as [|m IH]; intros i sp x sp' x' keys0 O Hi LO HX D; cbn [first_from] in D.
    - inversion D; subst. left. split; [exact HX|]. split; [|reflexivity]. intros k. cbn. destruct (E sp' k) eqn:X; [|reflexivity]. pose proof (LO k ltac:(congruence)). pose proof (grp_lt hash k). lia.
    - assert (NXT : slot_keys hash sp i [] -> forall k, E sp k <> None -> i + 1 <= grp k).
      { intros KS k Hk. pose proof (LO k Hk). destruct (N.eq_dec (grp k) i) as [G|]; [|lia]. exfalso. apply (proj2 (proj1 (proj2 KS) k)). auto. }
      destruct w; inversion D as [|? ? ? ? ? ? ? ? D1 D2| |]; subst; apply one_inv in D1; destruct D1 as (-> & keys & KS & ->).
      + cbn [x_keys] in D2. destruct keys as [|k ks]; cbn [firstn] in D2.
        * refine (IH (i + 1) sp _ sp' x' keys0 O ltac:(lia) (NXT KS) _ D2). exact HX.
        * destruct (first_head sp i k ks keys0 O KS LO) as (keys & O'). inversion D2 as [|? ? ? ? ? ? ? ? D3 D4| |]; subst. apply one_inv in D3. destruct D3 as [D3 ->]. inversion D4; subst. cbn [x_s x_hit] in *. right. split; [reflexivity|]. exists k, keys. split; [exact O'|]. rewrite wst_id. exact D3.
      + destruct keys as [|k ks]; cbn [x_hit] in D2.
        * refine (IH (i + 1) sp _ sp' x' keys0 O ltac:(lia) (NXT KS) _ D2). reflexivity.
        * destruct (first_head sp i k ks keys0 O KS LO) as (keys & O'). inversion D2; subst. right. split; [reflexivity|]. exists k, keys. split; [exact O'|]. reflexivity.
  Qed.
  Lemma nodup_join A (a b : list A) : NoDup a -> NoDup b -> (forall x, In x a -> ~ In x b) -> NoDup (a ++ b).
  Proof. induction a as [|x a IH]; intros H1 H2 H; [exact H2|]. inversion H1; subst. cbn. constructor; [rewrite in_app_iff; intros [X|X]; [contradiction|apply (H x); [left; reflexivity|exact X]]|]. apply IH; auto. intros z Hz. apply H. right. exact Hz. Qed.
  (** The keys from a slot on. *)
  Definition keys_from (sp : spec) (i : N) (keys : list bytes) : Prop :=
    NoDup keys /\ (forall k, In k keys <-> i <= grp k /\ E sp k <> None) /\
    forall a k b k' x x', keys = a ++ k :: b -> In k' b -> E sp k = Some x -> E sp k' = Some x' -> grp k < grp k' \/ (grp k = grp k' /\ snd x < snd x').
  Lemma from_32 sp : keys_from sp 32 [].
  Proof. split; [constructor|]. split; [|intros a k b k' x x' X; destruct a; discriminate]. intros k. split; [intros []|]. intros [X _]. pose proof (grp_lt hash k). lia. Qed.
  Lemma from_0 sp keys : keys_from sp 0 keys -> in_order hash (E sp) keys.
  Proof. intros (A & B & C). split; [exact A|]. split; [|exact C]. intros k. rewrite B. split; [tauto|]. intros X. split; [lia|exact X]. Qed.
  Lemma from_cons sp i ks keys : slot_keys hash sp i ks -> keys_from sp (i + 1) keys -> keys_from sp i (ks ++ keys).
  Proof.
    intros (A1 & B1 & C1) (A2 & B2 & C2). split; [|split].
    - apply nodup_join; auto. intros k H1 H2. apply B1 in H1. apply B2 in H2. lia.
    - intros k. rewrite in_app_iff, B1, B2. split; [intros [[H ?]|[H ?]]; (split; [lia|assumption])|]. intros [H1 H2]. destruct (N.eq_dec (grp k) i); [left; auto|right; split; [lia|auto]].
    - intros a k b k' x x' EQ Hb X X'. apply app_eq_app in EQ. destruct EQ as (m & [[E1 E2]|[E1 E2]]).
      + destruct m as [|z m].
        * cbn in E2. apply (C2 [] k b k' x x'); auto.
        * cbn in E2. injection E2 as <- ->. assert (GK : grp k = i) by (apply B1; rewrite E1; apply in_or_app; cbn; auto). apply in_app_or in Hb. destruct Hb as [Hb|Hb].
          -- right. split; [rewrite GK; symmetry; apply B1; rewrite E1; apply in_or_app; cbn; auto|]. eapply (C1 a k m k'); eauto.
          -- left. apply B2 in Hb. lia.
      + eapply (C2 m k b k'); eauto.
  Qed.
  Lemma visits_app sp p a b st : fold_left (visit S (E sp) p) (a ++ b) st = fold_left (visit S (E sp) p) b (fold_left (visit S (E sp) p) a st).
  Proof. apply fold_left_app. Qed.
  Lemma each_r p mv rest m : forall i sp x sp' x', i + N.of_nat m = 32 -> does_prog sp x (each_from m i p false mv rest) sp' x' ->
    exists keys x1, keys_from sp i keys /\ x_s x1 = fold_left (visit S (E sp) p) keys (x_s x) /\ does_prog sp x1 rest sp' x'.
  Proof.
    induction m as [|m IH]; intros i sp x sp' x' Hi D; cbn [each_from] in D.
    - assert (i = 32) as -> by lia. exists [], x. split; [apply from_32|]. split; [reflexivity|exact D].
    - inversion D as [|? ? ? ? ? ? ? ? D1 D2| |]; subst. apply one_inv in D1. destruct D1 as (-> & ks & KS & ->). destruct (IH (i + 1) sp _ sp' x' ltac:(lia) D2) as (keys & x1 & K & X & D3). exists (ks ++ keys), x1. split; [apply from_cons; assumption|]. split; [|exact D3]. rewrite visits_app. exact X.
  Qed.
  (** A call for a key leaves the other slots alone. *)
  Lemma call_slot sp k p w sp' : s_call hash buckets S sp k p w sp' -> forall z, grp z <> grp k -> E sp' z = E sp z.
  Proof.
    intros (_ & _ & _ & _ & _ & H) z NZ. assert (NK : z <> k) by congruence. assert (beqb k z = false) as B by (destruct (beqb_spec k z); congruence).
    assert (PUT : forall e v t, put e k v t z = e z) by (intros; unfold put; rewrite ?B; destruct (beqb_spec z k); congruence). assert (DEL : forall e k0, grp k0 <> grp z -> del e k0 z = e z) by (intros e k0 G; unfold del; destruct (beqb_spec k0 z); destruct (beqb_spec z k0); congruence).
    destruct (look (E sp) k); destruct (if w then _ else _); try (rewrite H; try apply PUT; try (apply DEL; congruence); reflexivity).
    destruct H as [[_ H]|(_ & k0 & v0 & (G & _) & H)]; rewrite H; [apply PUT|]. rewrite DEL by congruence. apply PUT.
  Qed.
  Lemma keys_same sp sp' i keys : (forall z, i <= grp z -> E sp' z = E sp z) -> slot_keys hash sp' i keys -> slot_keys hash sp i keys.
  Proof.
    intros H (A & B & C). split; [exact A|]. split.
    - intros k. rewrite B. split; intros [G X]; (split; [exact G|]); [rewrite <- H|rewrite H]; auto; lia.
    - intros a k b k' x x' EQ Hb X X'. assert (grp k = i) by (apply B; rewrite EQ; apply in_or_app; cbn; auto). assert (grp k' = i) by (apply B; rewrite EQ; apply in_or_app; cbn; auto). rewrite <- H in X by lia. rewrite <- H in X' by lia. eapply C; eauto.
  Qed.
  Lemma from_same sp sp' i keys : (forall z, i <= grp z -> E sp' z = E sp z) -> keys_from sp' i keys -> keys_from sp i keys.
  Proof.
    intros H (A & B & C). split; [exact A|]. split.
    - intros k. rewrite B. split; intros [G X]; (split; [exact G|]); [rewrite <- H|rewrite H]; auto; lia.
    - intros a k b k' x x' EQ Hb X X'. assert (i <= grp k) by (apply B; rewrite EQ; apply in_or_app; cbn; auto). assert (i <= grp k') by (apply B; rewrite EQ; apply in_or_app; cbn; auto). rewrite <- H in X by lia. rewrite <- H in X' by lia. eapply C; eauto.
  Qed.
  Lemma keys_prog i p mv rest ks : forall sp x sp' x', (forall k, In k ks -> grp k = i) -> does_prog sp x (each_keys i ks p mv rest) sp' x' ->
    exists sp1 x1, s_calls hash buckets S true (wst sp (x_s x)) (map (fun k => (k, p)) ks) (wst sp1 (x_s x1)) /\ (forall z, grp z <> i -> E sp1 z = E sp z) /\ does_prog sp1 x1 rest sp' x'.
  Proof.
    induction ks as [|k ks IH]; intros sp x sp' x' G D; cbn [each_keys] in D.
    - exists sp, x. split; [constructor|]. split; [reflexivity|exact D].
    - inversion D as [|? ? ? ? ? ? ? ? D1 D2| |]; subst. apply one_inv in D1. destruct D1 as [D1 ->]. destruct (IH _ _ _ _ (fun k' H => G k' (or_intror H)) D2) as (sp2 & x2 & SC & ZZ & D3). cbn [x_s] in SC. rewrite wst_id in SC. exists sp2, x2. split; [econstructor; eauto|]. split; [|exact D3].
      intros z Hz. rewrite ZZ by exact Hz. apply (call_slot _ _ _ _ _ D1). rewrite (G k (or_introl eq_refl)). exact Hz.
  Qed.
  Lemma each_w p mv rest m : forall i sp x sp' x', i + N.of_nat m = 32 -> does_prog sp x (each_from m i p true mv rest) sp' x' ->
    exists keys sp1 x1, keys_from sp i keys /\ s_calls hash buckets S true (wst sp (x_s x)) (map (fun k => (k, p)) keys) (wst sp1 (x_s x1)) /\ does_prog sp1 x1 rest sp' x'.
  Proof.
    induction m as [|m IH]; intros i sp x sp' x' Hi D; cbn [each_from] in D.
    - assert (i = 32) as -> by lia. exists [], sp, x. split; [apply from_32|]. split; [constructor|exact D].
    - inversion D as [| | |? ? ? ? ? ? D0]; subst. inversion D0 as [|? ? ? ? ? ? ? ? D1 D2| |]; subst. apply one_inv in D1. destruct D1 as (-> & ks & KS & ->). cbn [x_keys] in D2.
      destruct (keys_prog i p mv _ ks _ _ _ _ (fun k H => proj1 (proj1 (proj1 (proj2 KS) k) H)) D2) as (sp1 & x1 & SC & ZZ & D3). cbn [x_s] in SC. destruct (IH (i + 1) _ _ _ _ ltac:(lia) D3) as (keys & sp2 & x2 & K & SC2 & D4).
      exists (ks ++ keys), sp2, x2. split; [apply from_cons; [exact KS|]; eapply from_same; [|exact K]; intros z Hz; apply ZZ; lia|]. split; [|exact D4]. rewrite map_app. eapply s_calls_app; eauto.
  Qed.
  Lemma count_prog m : forall i sp x sp' x', i + N.of_nat m = 32 -> does_prog sp x (sum_prog ACount m i) sp' x' ->
    sp' = sp /\ x_s x' = x_s x /\ exists keys, keys_from sp i keys /\ x_n x' = (x_n x + Z.of_nat (length keys))%Z.
  Proof.
    induction m as [|m IH]; intros i sp x sp' x' Hi D; cbn [sum_prog] in D.
    - assert (i = 32) as -> by lia. inversion D; subst. split; [reflexivity|]. split; [reflexivity|]. exists []. split; [apply from_32|cbn; lia].
    - inversion D as [|? ? ? ? ? ? ? ? D1 D2| |]; subst. apply one_inv in D1. destruct D1 as (-> & ks & KS & ->). destruct (IH (i + 1) sp _ sp' x' ltac:(lia) D2) as (-> & X1 & keys & K & X2). split; [reflexivity|]. split; [exact X1|]. exists (ks ++ keys). split; [apply from_cons; assumption|]. rewrite X2, app_length. cbn [x_n]. lia.
  Qed.
  Lemma sizes_app a b : sizes (a ++ b) = (sizes a + sizes b)%Z.
  Proof. induction a as [|[k v] a IH]; cbn [app sizes]; [lia|]. rewrite IH. lia. Qed.
  Lemma eff_prog m : forall i sp x sp' x', i + N.of_nat m = 32 -> does_prog sp x (sum_prog AEff m i) sp' x' ->
    sp' = sp /\ x_s x' = x_s x /\ exists l, (NoDup (map fst l) /\ forall k v, In (k, v) l <-> i <= grp k /\ exists t, E sp k = Some (v, t)) /\ x_n x' = (x_n x + sizes l)%Z.
  Proof.
    induction m as [|m IH]; intros i sp x sp' x' Hi D; cbn [sum_prog] in D.
    - assert (i = 32) as -> by lia. inversion D; subst. split; [reflexivity|]. split; [reflexivity|]. exists []. split; [|cbn; lia]. split; [constructor|]. intros k v. split; [intros []|]. intros [X _]. pose proof (grp_lt hash k). lia.
    - inversion D as [|? ? ? ? ? ? ? ? D1 D2| |]; subst. apply one_inv in D1. destruct D1 as (-> & l & [ND IN] & ->). destruct (IH (i + 1) sp _ sp' x' ltac:(lia) D2) as (-> & X1 & l2 & [ND2 IN2] & X2). split; [reflexivity|]. split; [exact X1|]. exists (l ++ l2). split; [split|].
      + rewrite map_app. apply nodup_join; auto. intros k H1 H2. apply in_map_iff in H1. apply in_map_iff in H2. destruct H1 as ([k1 v1] & <- & H1), H2 as ([k2 v2] & E2 & H2). apply IN in H1. apply IN2 in H2. cbn in E2. subst k2. lia.
      + intros k v. rewrite in_app_iff, IN, IN2. split; [intros [[H ?]|[H ?]]; (split; [lia|assumption])|]. intros [H1 H2]. destruct (N.eq_dec (grp k) i); [left; auto|right; split; [lia|auto]].
      + rewrite X2, sizes_app. cbn [x_n]. lia.
  Qed.
  (** There always is such an execution. *)
  Lemma prog_exists p : wf hash buckets p -> forall c sp x, crel c sp -> exists sp' x' c', does_prog sp x p sp' x' /\ crel c' sp'.
  Proof.
    induction 1 as [|l k F K IH|f k W IH|i k Hi W IH]; intros c sp x R.
    - exists sp, x, c. split; [constructor|exact R].
    - destruct (sec_ok hash buckets buckets_pos l c sp x R F) as (c1 & x1 & sp1 & _ & D & R1). destruct (IH sp x sp1 x1 D c1 sp1 x1 R1) as (sp2 & x2 & c2 & D2 & R2). exists sp2, x2, c2. split; [econstructor; eauto|exact R2].
    - destruct (IH c sp (f x) R) as (sp2 & x2 & c2 & D2 & R2). exists sp2, x2, c2. split; [constructor; exact D2|exact R2].
    - destruct (IH c sp x R) as (sp2 & x2 & c2 & D2 & R2). exists sp2, x2, c2. split; [constructor; exact D2|exact R2].
  Qed.
  (** What a call does if no section of another call comes between its own. *)
  Definition serial (sp : spec) (c : ccall S) (sp' : spec) (x' : loc S) : Prop :=
    let op s o r := s_op hash buckets S (wst sp s) o r (wst sp' (x_s x')) in
    match c with
    | KProcess k p w mv s => op s (OProcess S k p w mv) true
    | KMulti l w mv s => op s (OMulti S l w mv) true
    | KFirst p w mv s => op s (OFirst S p w mv) (x_hit x')
    | KEach p w mv _ s => op s (OEach S p w mv) true
    | KCount s => sp' = sp /\ x_s x' = s /\ exists keys, in_order hash (E sp) keys /\ x_n x' = Z.of_nat (length keys)
    | KEff s => sp' = sp /\ x_s x' = s /\ exists l, (NoDup (map fst l) /\ forall k v, In (k, v) l <-> exists t, E sp k = Some (v, t)) /\ x_n x' = sizes l
    | KClear _ | KRebuild _ _ _ => True
    end.
  Local Strategy 1000 [slots32 first_from each_from sum_prog].
  (** Then it is the call of C12, and Count and GetEffectiveDataSize are exact. *)
  Theorem C56_serial sp c sp' x' : (exists keys, in_order hash (E sp) keys) -> (forall p w mv noop s, c = KEach p w mv noop s -> noop = NOKEY) ->
    does_prog sp (start_loc c) (prog_of hash c) sp' x' -> serial sp c sp' x'.
  Proof.
    intros (keys0 & O) NK D. destruct c as [k p w mv s|l w mv s|p w mv s|p w mv noop s|s|s|s|cap mcap s]; cbn [prog_of start_loc serial] in *; try exact I.
    - inversion D as [|? ? ? ? ? ? ? ? D1 D2| |]; subst. inversion D2; subst. apply one_inv in D1. destruct D1 as [D1 ->]. split; [reflexivity|]. cbn [x_s]. rewrite wst_id. exact D1.
    - inversion D as [|? ? ? ? ? ? ? ? D1 D2| |]; subst. inversion D2; subst. split; [reflexivity|]. apply multi_sec in D1. exact D1.
    - refine (first_prog p w mv slots32 0 sp (loc0 s) sp' x' keys0 O eq_refl _ eq_refl D). intros k _. apply N.le_0_l.
    - specialize (NK _ _ _ _ _ eq_refl). subst noop. apply local_inv in D. rename D into D1. destruct w.
      + destruct (each_w p mv _ slots32 0 sp _ sp' x' eq_refl D1) as (keys & sp1 & x1 & K & SC & D2). clear D1. apply local_inv, ret_inv in D2. destruct D2 as [-> ->]. split; [reflexivity|]. exists keys, (x_s x1). split; [apply from_0, K|]. split; [reflexivity|]. exact SC.
      + destruct (each_r p mv _ slots32 0 sp _ sp' x' eq_refl D1) as (keys & x1 & K & X & D2). clear D1. apply local_inv, ret_inv in D2. destruct D2 as [-> ->]. split; [reflexivity|]. exists keys, (x_s x1). split; [apply from_0, K|]. split; [reflexivity|]. split; [exact X|reflexivity].
    - destruct (count_prog slots32 0 sp _ sp' x' eq_refl D) as (-> & X1 & keys & K & X2). split; [reflexivity|]. split; [exact X1|]. exists keys. split; [apply from_0, K|exact X2].
    - destruct (eff_prog slots32 0 sp _ sp' x' eq_refl D) as (-> & X1 & l & [ND IN] & X2). split; [reflexivity|]. split; [exact X1|]. exists l. split; [split; [exact ND|]|exact X2]. intros k v. rewrite IN. split; [intros [_ X]; exact X|intros X; split; [lia|exact X]].
  Qed.
End C56.
Print Assumptions C56_linearizable.
Print Assumptions C56_defined.
Print Assumptions C56_race.
Print Assumptions C56_no_race.
Print Assumptions C56_writes.
Print Assumptions C56_reads.
Print Assumptions C56_no_deadlock.
Print Assumptions C56_serial.

(** * Executions by computation *)
Inductive move (S : Type) := MCall (t : nat) (c : ccall S) | MMain (t : nat) | MSlot (t : nat) | MAct (t : nat) | MRet (t : nat).
Arguments MCall {S}. Arguments MMain {S}. Arguments MSlot {S}. Arguments MAct {S}. Arguments MRet {S}.
Section Play.
  Variable hash : bytes -> N.
  Variable buckets : N -> N.
  Variable n : nat.
  Context {S : Type}.
  Definition isx (md : mode) : bool := match md with MX => true | MS => false end.
  Definition main_free (y : sys S) (t : nat) (md : mode) : bool :=
    forallb (fun u => Nat.eqb u t || match main_of (y_pc y u) with None => true | Some b => negb (isx md || isx b) end) (seq 0 n).
  Definition slot_free (y : sys S) (t : nat) (j : N) : bool :=
    forallb (fun u => Nat.eqb u t || negb (existsb (N.eqb j) (slots_held (y_pc y u)))) (seq 0 n).
  Definition play1 (y : sys S) (mv : move S) : option (ev S * sys S) :=
    match mv with
    | MCall t c => match y_pc y t with PIdle => if (t <? n)%nat then Some (ECall t c, mkSys (y_c y) (upd (y_pc y) t (PMain c))) else None | _ => None end
    | MMain t => match y_pc y t with PMain c => if main_free y t (if excl_of hash buckets c then MX else MS) then Some (ETau, mkSys (y_c y) (upd (y_pc y) t (start hash buckets c))) else None | _ => None end
    | MSlot t => match y_pc y t with PLock l k x got (j :: todo) => if slot_free y t j then Some (ETau, mkSys (y_c y) (upd (y_pc y) t (PLock l k x (got ++ [j]) todo))) else None | _ => None end
    | MAct t => match cact hash (y_c y) (y_pc y t) with Next c' p' => Some (ETau, mkSys c' (upd (y_pc y) t p')) | _ => None end
    | MRet t => match y_pc y t with PRet r => Some (ERet t r, mkSys (y_c y) (upd (y_pc y) t PIdle)) | _ => None end
    end.
  Fixpoint play (y : sys S) (l : list (move S)) : option (list (ev S) * sys S) :=
    match l with
    | [] => Some ([], y)
    | mv :: l => match play1 y mv with
                 | None => None
                 | Some (e, y') => match play y' l with None => None | Some (tr, y2) => Some (match e with ETau => tr | _ => e :: tr end, y2) end
                 end
    end.
  Lemma play1_ok y mv e y' : (forall t, (n <= t)%nat -> y_pc y t = PIdle) -> play1 y mv = Some (e, y') ->
    step hash buckets n y e y' /\ (forall t, (n <= t)%nat -> y_pc y' t = PIdle).
  Proof.
    intros FI H.
    assert (UP : forall t p, (t < n)%nat -> forall u, (n <= u)%nat -> upd (y_pc y) t p u = PIdle) by (intros t p Ht u Hu; rewrite upd_other by lia; auto).
    assert (LT : forall t, y_pc y t <> PIdle -> (t < n)%nat) by (intros t X; destruct (Nat.lt_ge_cases t n); [assumption|destruct X; auto]).
    assert (FO : forall (f : nat -> bool), forallb f (seq 0 n) = true -> forall u, (u < n)%nat -> f u = true) by (intros f X u Hu; rewrite forallb_forall in X; apply X; apply in_seq; lia).
    destruct mv as [t c|t|t|t|t]; cbn [play1] in H.
    - destruct (y_pc y t) eqn:E; try discriminate. destruct (t <? n)%nat eqn:T; [|discriminate]. apply Nat.ltb_lt in T. injection H as <- <-. split; [constructor; auto|]. cbn. apply UP, T.
    - destruct (y_pc y t) eqn:E; try discriminate. destruct (main_free y t _) eqn:T; [|discriminate]. injection H as <- <-. split; [eapply st_main; [exact E|]|cbn; apply UP, LT; congruence]. intros u b NE M.
      assert (Hu : (u < n)%nat) by (apply LT; intros X; rewrite X in M; discriminate M). pose proof (FO _ T u Hu) as X. cbn in X. rewrite M in X. apply Nat.eqb_neq in NE. rewrite NE in X. cbn in X. apply negb_true_iff, orb_false_iff in X. destruct X as [X1 X2]. destruct (excl_of hash buckets c), b; try discriminate; auto.
    - destruct (y_pc y t) as [| | |l k x got [|j todo]| | | |] eqn:E; try discriminate. destruct (slot_free y t j) eqn:T; [|discriminate]. injection H as <- <-. split; [eapply st_slot; [exact E|]|cbn; apply UP, LT; congruence]. intros u NE M.
      assert (Hu : (u < n)%nat) by (apply LT; intros X; rewrite X in M; destruct M). pose proof (FO _ T u Hu) as X. cbn in X. apply Nat.eqb_neq in NE. rewrite NE in X. cbn in X. apply negb_true_iff in X. assert (existsb (N.eqb j) (slots_held (y_pc y u)) = true) as Y; [|congruence]. apply existsb_exists. exists j. split; [exact M|apply N.eqb_refl].
    - destruct (cact hash (y_c y) (y_pc y t)) as [| |m' p'] eqn:E; try discriminate. injection H as <- <-. split; [eapply st_act; exact E|]. cbn. apply UP, LT. intros X. rewrite X in E. discriminate E.
    - destruct (y_pc y t) eqn:E; try discriminate. injection H as <- <-. split; [constructor; exact E|]. cbn. apply UP, LT. congruence.
  Qed.
  Lemma run_app (y : sys S) tr y1 tr2 y2 : run hash buckets n y1 tr2 y2 -> run hash buckets n y tr y1 -> run hash buckets n y (tr ++ tr2) y2.
  Proof.
    intros R2 R1. induction R2 as [y0|y0 y1 tr2 y2 R IH ST|y0 y1 tr2 e y2 R IH NE ST].
    - rewrite app_nil_r. exact R1.
    - eapply run_tau; eauto.
    - rewrite app_assoc. eapply run_ev; eauto.
  Qed.
  Lemma play_ok l : forall y tr y', (forall t, (n <= t)%nat -> y_pc y t = PIdle) -> play y l = Some (tr, y') -> run hash buckets n y tr y'.
  Proof.
    induction l as [|mv l IH]; intros y tr y' FI H; cbn in H; [injection H as <- <-; constructor|].
    destruct (play1 y mv) as [[e y1]|] eqn:E; [|discriminate]. destruct (play y1 l) as [[tr2 y2]|] eqn:E2; [|discriminate]. injection H as <- <-.
    destruct (play1_ok _ _ _ _ FI E) as [ST FI2]. specialize (IH _ _ _ FI2 E2). destruct e.
    - apply (run_app y [ECall t c] y1 tr2 y2 IH). apply (run_ev _ _ _ _ y y [] _ y1); [constructor|discriminate|exact ST].
    - apply (run_app y [ERet t x] y1 tr2 y2 IH). apply (run_ev _ _ _ _ y y [] _ y1); [constructor|discriminate|exact ST].
    - apply (run_app y [] y1 tr2 y2 IH). eapply run_tau; [constructor|exact ST].
  Qed.
End Play.

(** The hash function of the code; the processors note what they are shown, [None] for a missing record. *)
Definition shown := list (bytes * option bytes).
Notation play2 l := (play ch cb 2 (init cb shown 100 0) l).
Notation reach tr y := (run ch cb 2 (init cb shown 100 0) tr y).
Definition acts (t k : nat) : list (move shown) := repeat (MAct t) k.
Definition p_set (v : bytes) : proc shown := mkProc (fun k o s => (ASet v, s ++ [(k, Some o)])) (fun k s => (ASet v, s ++ [(k, None)])).
Definition p_del : proc shown := mkProc (fun k o s => (ARemove, s ++ [(k, Some o)])) (fun k s => (ANoop, s ++ [(k, None)])).
Definition p_see : proc shown := mkProc (fun k o s => (ANoop, s ++ [(k, Some o)])) (fun k s => (ANoop, s ++ [(k, None)])).
Lemma reach_ok l tr y : play2 l = Some (tr, y) -> reach tr y.
Proof. intros H. eapply play_ok; [|exact H]. reflexivity. Qed.
(** A whole call of one section by one thread: [slots] locks, [k] transitions. *)
Definition whole (t : nat) (c : ccall shown) (slots k : nat) : list (move shown) := [MCall t c; MMain t; MAct t] ++ repeat (MSlot t) slots ++ acts t k ++ [MRet t].
Definition set17 := KProcess [17] (p_set [1]) true false [].
Definition set5 := KProcess [5] (p_set [2]) true false [].
Definition del17 := KProcess [17] p_del true false [].
Definition pop := KFirst p_del true false [].
Example ex_calls : match play2 (whole 0 set17 1 6 ++ whole 0 set5 1 6 ++ whole 1 del17 1 6) with
  | Some (tr, y) => tr = [ECall 0 set17; ERet 0 (mkLoc [([17], None)] 0 [] true); ECall 0 set5; ERet 0 (mkLoc [([5], None)] 0 [] true); ECall 1 del17; ERet 1 (mkLoc [([17], Some [1])] 0 [] true)] /\
      cache_items (y_c y) = Some [([5], [2])]
  | None => False end.
Proof. vm_compute. auto. Qed.
(** Two calls for keys of different slots at the same time: the second takes effect while the first holds its slot. *)
Example ex_interleaved : match play2 ([MCall 0 set17; MMain 0; MAct 0; MSlot 0; MAct 0] ++ whole 1 set5 1 6 ++ acts 0 5 ++ [MRet 0]) with
  | Some (tr, y) => tr = [ECall 0 set17; ECall 1 set5; ERet 1 (mkLoc [([5], None)] 0 [] true); ERet 0 (mkLoc [([17], None)] 0 [] true)] /\ cache_items (y_c y) = Some [([17], [1]); ([5], [2])]
  | None => False end.
Proof. vm_compute. auto. Qed.
(** For keys of the same slot the second has to wait. *)
Example ex_waits : match play2 [MCall 0 set17; MMain 0; MAct 0; MSlot 0; MAct 0; MCall 1 del17; MMain 1; MAct 1; MSlot 1] with Some _ => False | None => True end.
Proof. vm_compute. exact I. Qed.

(** ProcessFirst as writer looks up the first key under the lock of its slot, releases it, and then processes that key: another
    thread may have removed the record in between.  The processor is then told that the record is missing and the call succeeds,
    though the database holds a record all the time; no call of ProcessFirst on its own does that. *)
Definition first_gap : list (move shown) :=
  whole 0 set17 1 6 ++ whole 0 set5 1 6 ++ [MCall 1 pop; MMain 1; MAct 1; MSlot 1] ++ acts 1 5 ++ whole 0 del17 1 6 ++ [MAct 1; MSlot 1] ++ acts 1 6 ++ [MRet 1].
Theorem C56_first_refuted : exists tr y x, reach tr y /\
  tr = [ECall 0 set17; ERet 0 (mkLoc [([17], None)] 0 [] true); ECall 0 set5; ERet 0 (mkLoc [([5], None)] 0 [] true);
        ECall 1 pop; ECall 0 del17; ERet 0 (mkLoc [([17], Some [1])] 0 [] true); ERet 1 x] /\
  x_s x = [([17], None)] /\ cache_items (y_c y) = Some [([5], [2])] /\ forall sp sp', ~ serial ch cb sp pop sp' x.
Proof.
  destruct (play2 first_gap) as [[tr y]|] eqn:E; [|exfalso; vm_compute in E; discriminate E].
  assert (P : match play2 first_gap with Some (tr, y) => tr = [ECall 0 set17; ERet 0 (mkLoc [([17], None)] 0 [] true); ECall 0 set5; ERet 0 (mkLoc [([5], None)] 0 [] true);
        ECall 1 pop; ECall 0 del17; ERet 0 (mkLoc [([17], Some [1])] 0 [] true); ERet 1 (mkLoc [([17], None)] 0 [[17]] true)] /\ cache_items (y_c y) = Some [([5], [2])] | None => False end) by (vm_compute; auto).
  rewrite E in P. destruct P as [P1 P2]. exists tr, y. eexists. split; [apply (reach_ok _ _ _ E)|]. split; [exact P1|]. split; [reflexivity|]. split; [exact P2|].
  intros sp sp'. unfold serial, pop. cbn [s_op x_hit x_s]. intros [(X & _)|(_ & k & keys & O & C)]; [discriminate X|].
  destruct C as (_ & _ & _ & C & _). cbn [with_st sp_st sp_E] in C. unfold answer, look in C. destruct (sp_E shown sp k) as [[v t]|] eqn:EK; cbn in C; [discriminate C|].
  exfalso. apply (proj1 (proj1 (proj2 O) k)); [left; reflexivity|exact EK].
Qed.

(** ProcessEach as writer reads the number of records of a slot before it locks the slot: a race with any call that writes there. *)
Definition each_all := KEach p_see true (fun _ => false) [] ([] : shown).
Definition peek_race : list (move shown) := [MCall 0 set17; MMain 0; MAct 0; MSlot 0; MAct 0; MCall 1 each_all; MMain 1; MAct 1].
Theorem C56_each_refuted : exists tr y, reach tr y /\ race y.
Proof.
  destruct (play2 peek_race) as [[tr y]|] eqn:E; [|exfalso; vm_compute in E; discriminate E]. exists tr, y. split; [apply (reach_ok _ _ _ E)|].
  assert (P : match play2 peek_race with Some (_, y) => match y_pc y 0%nat, y_pc y 1%nat with PBody _ _ _ ((i, _) :: _), PGo (Peek j _) _ => i = j | _, _ => False end | None => False end) by (vm_compute; reflexivity).
  rewrite E in P. destruct (y_pc y 0%nat) as [| | | |l k x [|[i ac] r]| | |] eqn:E0; try contradiction. destruct (y_pc y 1%nat) as [| |[| | |j k2] x2| | | | |] eqn:E1; try contradiction. subst j.
  exists 0%nat, 1%nat, i, false. split; [discriminate|]. rewrite E0, E1. split; constructor.
Qed.

(** Count adds up the slots one at a time: with a thread that only ever exchanges the one record for another, it returns 2. *)
Definition swap (k k' : bytes) := KMulti [(k, p_del); (k', p_set [1])] true (fun _ => false) ([] : shown).
Definition cnt := KCount ([] : shown).
Definition section1 (t : nat) : list (move shown) := [MAct t; MSlot t] ++ acts t 5.
Definition count_two : list (move shown) :=
  whole 0 (swap [5] [17]) 2 8 ++ [MCall 1 cnt; MMain 1] ++ section1 1 ++ whole 0 (swap [17] [5]) 2 8 ++ concat (repeat (section1 1) 31) ++ [MAct 1; MRet 1].
Lemma del_gone sp k sp' : s_call ch cb shown sp k p_del true sp' -> sp_E shown sp' k = None /\ forall z, sp_E shown sp' z <> None -> sp_E shown sp z <> None.
Proof.
  intros (_ & _ & _ & _ & _ & H). unfold answer in H. destruct (look (sp_E shown sp) k) as [v|] eqn:L; cbn in H.
  - split; [rewrite H; unfold del; rewrite beqb_refl; reflexivity|]. intros z Hz. rewrite H in Hz. unfold del in Hz. destruct (beqb z k); congruence.
  - split; [rewrite H; unfold look in L; destruct (sp_E shown sp k); [discriminate|reflexivity]|]. intros z Hz. rewrite H in Hz. exact Hz.
Qed.
Lemma set_adds sp k v sp' : s_call ch cb shown sp k (p_set v) true sp' -> forall z, sp_E shown sp' z <> None -> z = k \/ sp_E shown sp z <> None.
Proof.
  intros (_ & _ & _ & _ & _ & H) z Hz. unfold answer in H. assert (PUT : forall v' t, put (sp_E shown sp) k v' t z <> None -> z = k \/ sp_E shown sp z <> None) by (intros v' t X; unfold put in X; destruct (beqb_spec z k); auto).
  destruct (look (sp_E shown sp) k) as [w|] eqn:L; cbn in H; [rewrite H in Hz; eauto|]. destruct H as [[_ H]|(_ & k0 & v0 & _ & H)]; rewrite H in Hz; [eauto|]. unfold del in Hz. destruct (beqb z k0); [congruence|eauto].
Qed.
Definition one_of (sp : spec shown) : Prop := (forall z, sp_E shown sp z <> None -> z = [5]) \/ (forall z, sp_E shown sp z <> None -> z = [17]).
Lemma swap_ok k k' sp sp' x' : (k = [5] /\ k' = [17] \/ k = [17] /\ k' = [5]) -> one_of sp -> whole_call ch cb (swap k k') sp sp' x' -> one_of sp'.
Proof.
  intros K O D. cbn [whole_call swap] in D. inversion D as [|? ? ? sp1 ? ? D1 D2]; subst. inversion D2 as [|? ? ? sp2 ? ? D3 D4]; subst. inversion D4; subst.
  apply del_gone in D1. destruct D1 as [G1 G2]. pose proof (set_adds _ _ _ _ D3) as A. cbn [with_st sp_E] in *.
  assert (forall z, sp_E shown sp' z <> None -> z = k').
  { intros z Hz. destruct (A z Hz) as [X|X]; [exact X|]. pose proof (G2 z X) as Y. destruct K as [[-> ->]|[-> ->]], O as [O|O]; pose proof (O z Y); subst z; try reflexivity; congruence. }
  destruct K as [[-> ->]|[-> ->]]; [right|left]; assumption.
Qed.
Definition swaps (c : ccall shown) : Prop := c = swap [5] [17] \/ c = swap [17] [5] \/ c = cnt.
Definition ath_ok (x : athr (S := shown)) : Prop :=
  match x with
  | ACalled c => swaps c
  | ARun p _ => exists m i, p = sum_prog ACount m i
  | _ => True
  end.
Local Strategy 1000 [slots32 sum_prog].
Lemma swaps_inv a e a' : one_of (a_sp a) /\ (forall t, ath_ok (a_th a t)) -> (forall t c, e = ECall t c -> swaps c) -> lstep ch cb a e a' -> one_of (a_sp a') /\ forall t, ath_ok (a_th a' t).
Proof.
  intros [O T] EV ST. assert (UP : forall t p, ath_ok p -> forall u, ath_ok (aupd (a_th a) t p u)) by (intros t p P u; unfold aupd; destruct (Nat.eqb u t); [exact P|apply T]).
  destruct ST as [t c Et|t c sp' x' Et W|t c Et BS|t l k x sp' x' Et D|t f k x Et|t i k x Et|t x Et|t s sp' Et _ _|t cap mcap s sp' Et _ _|t x Et]; pose proof (T t) as Tt; rewrite Et in Tt; cbn [a_sp a_th].
  - split; [exact O|]. apply UP. apply (EV t c eq_refl).
  - split; [|apply UP; exact I]. cbn in Tt. destruct Tt as [->|[->| ->]]; [eapply (swap_ok [5] [17]); eauto|eapply (swap_ok [17] [5]); eauto|destruct W].
  - split; [exact O|]. apply UP. cbn in Tt. destruct Tt as [->|[->| ->]]; [destruct BS|destruct BS|]. exists slots32, 0. reflexivity.
  - cbn in Tt. destruct Tt as (m & i & X). destruct m as [|m]; [discriminate X|]. cbn [sum_prog] in X. injection X as -> ->. inversion D as [|? ? ? ? ? ? ? ? ? D1 D2]; subst. inversion D2; subst. destruct D1 as [-> _]. split; [exact O|]. apply UP. exists m, (i + 1). reflexivity.
  - cbn in Tt. destruct Tt as (m & i & X). destruct m; discriminate X.
  - cbn in Tt. destruct Tt as (m & i' & X). destruct m; discriminate X.
  - split; [exact O|]. apply UP. exact I.
  - exfalso. cbn in Tt. destruct Tt as [X|[X|X]]; discriminate X.
  - exfalso. cbn in Tt. destruct Tt as [X|[X|X]]; discriminate X.
  - split; [exact O|]. apply UP. exact I.
Qed.
Theorem C56_count_refuted : exists tr y x, reach tr y /\
  tr = [ECall 0 (swap [5] [17]); ERet 0 (mkLoc [([5], None); ([17], None)] 0 [] true); ECall 1 cnt; ECall 0 (swap [17] [5]);
        ERet 0 (mkLoc [([17], Some [1]); ([5], None)] 0 [] true); ERet 1 x] /\ x_n x = 2%Z /\
  forall st tr' rest a, tr' ++ rest = tr -> lrun ch cb (ainit 100 0 st) tr' a -> forall k k', sp_E shown (a_sp a) k <> None -> sp_E shown (a_sp a) k' <> None -> k = k'.
Proof.
  destruct (play2 count_two) as [[tr y]|] eqn:E; [|exfalso; vm_compute in E; discriminate E].
  assert (P : match play2 count_two with Some (tr, _) => tr = [ECall 0 (swap [5] [17]); ERet 0 (mkLoc [([5], None); ([17], None)] 0 [] true); ECall 1 cnt; ECall 0 (swap [17] [5]);
        ERet 0 (mkLoc [([17], Some [1]); ([5], None)] 0 [] true); ERet 1 (mkLoc [] 2 [] false)] | None => False end) by (vm_compute; reflexivity).
  rewrite E in P. exists tr, y. eexists. split; [apply (reach_ok _ _ _ E)|]. split; [exact P|]. split; [reflexivity|]. clear E. subst tr. intros st tr' rest a ET AR.
  assert (FA : Forall (fun e => forall t c, e = ECall t c -> swaps c) tr').
  { match type of ET with _ = ?tr => assert (X : Forall (fun e : ev shown => forall t c, e = ECall t c -> swaps c) tr) by (repeat (apply Forall_cons; [intros t c X; try discriminate X; injection X as <- <-; unfold swaps; auto|]); apply Forall_nil) end. rewrite <- ET in X. apply Forall_app in X. apply X. }
  clear ET. assert (INV : one_of (a_sp a) /\ forall t, ath_ok (a_th a t)).
  { remember (ainit 100 0 st) as a0 eqn:E0. induction AR as [a|a a1 tr a2 R IH ST|a a1 tr e a2 R IH NE ST]; subst.
    - split; [left; intros z Hz; exfalso; apply Hz; reflexivity|intros t; exact I].
    - eapply swaps_inv; [apply (IH eq_refl FA)| |exact ST]. discriminate.
    - apply Forall_app in FA. destruct FA as [F1 F2]. inversion F2; subst. eapply swaps_inv; [apply (IH eq_refl F1)| |exact ST]. assumption. }
  destruct INV as [[O|O] _]; intros k k' H1 H2; rewrite (O k H1), (O k' H2); reflexivity.
Qed.
Print Assumptions C56_first_refuted.
Print Assumptions C56_each_refuted.
Print Assumptions C56_count_refuted.

(** The hypotheses are met. *)
Example ex_reached : forall tr y, play2 (whole 0 set17 1 6 ++ whole 1 set5 1 6) = Some (tr, y) -> exists a, lrun ch cb (ainit 100 0 []) tr a /\ holds ch (y_c y) (a_sp a).
Proof.
  intros tr y H. destruct (C56_linearizable ch cb cb_pos 2 100 0 [] tr y (reach_ok _ _ _ H)) as (a & A & _ & Q). exists a. split; [exact A|]. apply Q.
  assert (P : match play2 (whole 0 set17 1 6 ++ whole 1 set5 1 6) with Some (_, y) => forall t, main_of (y_pc y t) = None | None => False end) by (vm_compute; intros [|[|t]]; reflexivity). rewrite H in P. exact P.
Qed.
Example ex_serial : exists sp' x', does_prog ch cb (sp_new shown 100 0 []) (start_loc pop) (prog_of ch pop) sp' x' /\ serial ch cb (sp_new shown 100 0 []) pop sp' x'.
Proof.
  destruct (prog_exists ch cb cb_pos (prog_of ch pop) (wf_prog ch cb cb_pos pop) _ _ (start_loc pop) (new_rel ch cb cb_pos shown 100 0 [])) as (sp' & x' & c' & D & R). exists sp', x'. split; [exact D|].
  apply C56_serial; [exact cb_pos| |unfold pop; intros; discriminate|exact D]. exists []. split; [constructor|]. split; [|intros a k b k' x x0 X; destruct a; discriminate]. intros k. split; [intros []|]. intros X. exfalso. apply X. reflexivity.
Qed.
