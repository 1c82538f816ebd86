(** CacheDBM called by several threads: the atomic sections of the specification, and the invariant that ties the locks to them. *)
From Coq Require Import List NArith ZArith Bool Lia Arith.
Import ListNotations.
From Verif Require Import Bytes CodecModel DbmModel StatusModel LinkedModel LinkedProofs Stamps HashMutexModel HashMutexProps CacheModel CacheProofs CacheProps CacheConcModel.
Local Open Scope N_scope.

Section Spec.
  Variable hash : bytes -> N.
  Variable buckets : N -> N.
  Context {S : Type}.
  Notation grp := (slot_of hash).
  Notation spec := (spec S). Notation loc := (loc S). Notation act := (act S). Notation prog := (prog S). Notation ccall := (ccall S).
  Notation E := (sp_E S).

  (** * Specification *)
  (** The keys of a slot, the least recently used first. *)
  Definition slot_keys (sp : spec) (i : N) (keys : list bytes) : Prop :=
    NoDup keys /\ (forall k, In k keys <-> grp k = i /\ E sp k <> None) /\
    forall a k b k' x x', keys = a ++ k :: b -> In k' b -> E sp k = Some x -> E sp k' = Some x' -> snd x < snd x'.
  (** What is done to a slot, in terms of the least-recently-used cache of C12. *)
  Definition does_act (i : N) (a : act) (sp : spec) (x : loc) (sp' : spec) (x' : loc) : Prop :=
    match a with
    | AProc k p w _ => s_call hash buckets S (with_st S sp (x_s x)) k p w sp' /\ x' = mkLoc (sp_st S sp') (x_n x) (x_keys x) true
    | ALook => sp' = sp /\ exists keys, slot_keys sp i keys /\ x' = mkLoc (x_s x) (x_n x) (firstn 1 keys) (x_hit x)
    | AFirst p => sp' = sp /\ exists keys, slot_keys sp i keys /\
        x' = match keys with [] => mkLoc (x_s x) (x_n x) (x_keys x) false | k :: _ => mkLoc (visit S (E sp) p (x_s x) k) (x_n x) (x_keys x) true end
    | AKeys => sp' = sp /\ exists keys, slot_keys sp i keys /\ x' = mkLoc (x_s x) (x_n x) keys (x_hit x)
    | AEach p => sp' = sp /\ exists keys, slot_keys sp i keys /\ x' = mkLoc (fold_left (visit S (E sp) p) keys (x_s x)) (x_n x) (x_keys x) (x_hit x)
    | ACount => sp' = sp /\ exists keys, slot_keys sp i keys /\ x' = mkLoc (x_s x) (x_n x + Z.of_nat (length keys))%Z (x_keys x) (x_hit x)
    | AEff => sp' = sp /\ exists l, in_slot hash (E sp) i l /\ x' = mkLoc (x_s x) (x_n x + sizes l)%Z (x_keys x) (x_hit x)
    end.
  Inductive does_sec : spec -> loc -> list (N * act) -> spec -> loc -> Prop :=
  | ds_nil sp x : does_sec sp x [] sp x
  | ds_cons sp x i a l sp1 x1 sp2 x2 : does_act i a sp x sp1 x1 -> does_sec sp1 x1 l sp2 x2 -> does_sec sp x ((i, a) :: l) sp2 x2.

  (** Threads whose sections take effect as a whole.  Clear and Rebuild take effect while no other call is between its sections. *)
  Inductive athr := AIdle | ACalled (c : ccall) | ARun (p : prog) (x : loc) | ADone (x : loc).
  Record asys := mkA { a_sp : spec; a_th : nat -> athr }.
  Definition aupd (f : nat -> athr) (t : nat) (x : athr) : nat -> athr := fun u => if Nat.eqb u t then x else f u.
  Inductive astep (a : asys) : ev S -> asys -> Prop :=
  | as_call t c : a_th a t = AIdle -> astep a (ECall t c) (mkA (a_sp a) (aupd (a_th a) t (ACalled c)))
  | as_begin t c : a_th a t = ACalled c -> excl_of hash buckets c = None -> astep a ETau (mkA (a_sp a) (aupd (a_th a) t (ARun (prog_of hash c) (start_loc c))))
  | as_sec t l k x sp' x' : a_th a t = ARun (Sec l k) x -> does_sec (a_sp a) x l sp' x' -> astep a ETau (mkA sp' (aupd (a_th a) t (ARun (k x') x')))
  | as_local t f k x : a_th a t = ARun (Local f k) x -> astep a ETau (mkA (a_sp a) (aupd (a_th a) t (ARun k (f x))))
  | as_peek t i k x : a_th a t = ARun (Peek i k) x -> astep a ETau (mkA (a_sp a) (aupd (a_th a) t (ARun k x)))
  | as_end t x : a_th a t = ARun Ret x -> astep a ETau (mkA (a_sp a) (aupd (a_th a) t (ADone x)))
  | as_clear t s sp' : a_th a t = ACalled (KClear s) -> (forall u p x, a_th a u <> ARun p x) ->
      s_op hash buckets S (a_sp a) (OClear S) true sp' -> astep a ETau (mkA sp' (aupd (a_th a) t (ADone (loc0 s))))
  | as_rebuild t cap mcap s sp' : a_th a t = ACalled (KRebuild cap mcap s) -> (forall u p x, a_th a u <> ARun p x) ->
      s_op hash buckets S (a_sp a) (ORebuild S cap mcap) true sp' -> astep a ETau (mkA sp' (aupd (a_th a) t (ADone (loc0 s))))
  | as_ret t x : a_th a t = ADone x -> astep a (ERet t x) (mkA (a_sp a) (aupd (a_th a) t AIdle)).
  Inductive arun : asys -> list (ev S) -> asys -> Prop :=
  | arun_nil a : arun a [] a
  | arun_tau a a1 tr a2 : arun a tr a1 -> astep a1 ETau a2 -> arun a tr a2
  | arun_ev a a1 tr e a2 : arun a tr a1 -> e <> ETau -> astep a1 e a2 -> arun a (tr ++ [e]) a2.

  (** * Sections on the memory *)
  Fixpoint run_acts (c : cache) (x : loc) (l : list (N * act)) : option (cache * loc) :=
    match l with
    | [] => Some (c, x)
    | (i, a) :: l => match exec_act hash a (c_slots c i) x with None => None | Some (s', x') => run_acts (with_slot c i s') x' l end
    end.
  Lemma slot_at c i s j : c_slots (with_slot c i s) j = if j =? i then s else c_slots c j.
  Proof. reflexivity. Qed.
  Lemma run_local l : forall c d x c' x', run_acts c x l = Some (c', x') -> (forall i, In i (map fst l) -> c_slots d i = c_slots c i) ->
    exists d', run_acts d x l = Some (d', x') /\ (forall i, In i (map fst l) -> c_slots d' i = c_slots c' i) /\
      (forall i, ~ In i (map fst l) -> c_slots d' i = c_slots d i /\ c_slots c' i = c_slots c i) /\ c_cap d' = c_cap d /\ c_mcap d' = c_mcap d /\ c_cap c' = c_cap c /\ c_mcap c' = c_mcap c.
  Proof.
    induction l as [|[i a] l IH]; intros c d x c' x' H EQ; cbn [run_acts map fst] in *.
    - injection H as <- <-. exists d. repeat split; auto; intros i [].
    - rewrite (EQ i (or_introl eq_refl)). destruct (exec_act hash a (c_slots c i) x) as [[s1 x1]|]; [|discriminate].
      destruct (IH _ (with_slot d i s1) _ _ _ H) as (d' & H1 & H2 & H3 & H4 & H5 & H6 & H7).
      { intros j J. rewrite !slot_at. destruct (j =? i); [reflexivity|]. apply EQ. right. exact J. }
      exists d'. split; [exact H1|]. split; [|split; [|cbn in *; auto]].
      + intros j [<-|J]; [|auto]. destruct (in_dec N.eq_dec i (map fst l)) as [I|I]; [auto|]. destruct (H3 i I) as [-> ->]. rewrite !slot_at, N.eqb_refl. reflexivity.
      + intros j J. destruct (H3 j) as [-> ->]; [intros X; apply J; right; exact X|]. rewrite !slot_at. destruct (N.eqb_spec j i) as [->|]; [exfalso; apply J; left; reflexivity|auto].
  Qed.

  Hypothesis buckets_pos : forall c, buckets c <> 0.
  Notation crel := (crel hash buckets S).
  Lemma keys_ok c sp i : crel c sp -> i < 32 -> slot_keys sp i (map fst (items_at c i)) /\ slot_items (c_slots c i) = Some (items_at c i).
  Proof.
    intros R Hi. destruct (items_at_ok hash buckets S c sp i R Hi) as (_ & T & EI & _). split; [|exact EI].
    pose proof (trip_slot hash _ _ _ _ T) as [ND IN]. split; [exact ND|]. split.
    - intros k. split.
      + intros H. apply in_map_iff in H. destruct H as ([k1 v1] & <- & H). apply IN in H. destruct H as [G [t H]]. split; [exact G|cbn; congruence].
      + intros [G H]. destruct (E sp k) as [[v t]|] eqn:X; [|congruence]. apply in_map_iff. exists (k, v). split; [reflexivity|]. apply IN. eauto.
    - intros a k b k' x x' E1 Hb X X'.
      assert (GA : forall z, In z (map fst (items_at c i)) -> grp z = i) by (intros z Hz; apply in_map_iff in Hz; destruct Hz as ([k1 v1] & <- & H); apply IN in H; apply H).
      assert (GK : grp k = i) by (apply GA; rewrite E1; apply in_or_app; cbn; auto). assert (GK' : grp k' = i) by (apply GA; rewrite E1; apply in_or_app; cbn; auto).
      apply map_eq_app in E1. destruct E1 as (l1 & l2 & E1 & Ea & Eb). destruct l2 as [|[k2 v2] l2]; [discriminate|]. cbn in Eb. injection Eb as -> Eb. rewrite <- Eb in Hb. apply in_map_iff in Hb. destruct Hb as ([k3 v3] & E3 & Hb). cbn in E3. subst k3.
      destruct (trip_sub _ _ _ (l1 ++ [(k, v2)]) l2 ltac:(rewrite <- app_assoc; exact E1) T) as [_ O]. apply (O k v2 k' v3 x x'); [apply in_or_app; cbn; auto|exact Hb| |]; unfold rest; rewrite ?GK, ?GK', N.eqb_refl; assumption.
  Qed.
  (** An act on the slot it belongs to. *)
  Definition aok (e : N * act) : Prop := fst e < 32 /\ match snd e with AProc k _ _ _ => grp k = fst e | _ => True end.
  Lemma same_slot c sp i : crel c sp -> crel (with_slot c i (c_slots c i)) sp.
  Proof. intros R. eapply (crel_ext hash buckets S); [exact R|reflexivity|reflexivity|intros g _; apply with_slot_same]. Qed.
  Lemma act_ok c sp i a x : crel c sp -> aok (i, a) -> exists s' x' sp', exec_act hash a (c_slots c i) x = Some (s', x') /\ does_act i a sp x sp' x' /\ crel (with_slot c i s') sp'.
  Proof.
    intros R [Hi OK]. cbn [fst snd] in *. destruct (keys_ok c sp i R Hi) as [KS EI].
    assert (VIS : forall k v, In (k, v) (items_at c i) -> look (E sp) k = Some v).
    { intros k v H. apply (in_items hash buckets S c sp i k v R Hi) in H. destruct H as [_ [t H]]. unfold look. rewrite H. reflexivity. }
    destruct (items_at_ok hash buckets S c sp i R Hi) as (SR & T & _). pose proof (srep_num _ _ _ SR) as NUM. pose proof SR as [[L RR] EF]. pose proof (rep_first _ _ _ _ _ RR) as FI. pose proof (r_kv _ _ _ _ _ _ _ RR) as EK.
    destruct a as [k p w mv| |p| |p| |]; cbn [exec_act does_act].
    - destruct (call_ok hash buckets buckets_pos S c (with_st S sp (x_s x)) k p w mv R) as (s' & sp' & E1 & S1 & R1). rewrite OK in *. cbn [with_st sp_st] in E1. rewrite E1. cbn [obind fst snd]. eauto 10.
    - rewrite FI. destruct L as [|f L]; [destruct (items_at c i) eqn:EE; [|discriminate]|destruct (items_at c i) as [|[k v] l] eqn:EE; [discriminate|]]; cbn [hd_error].
      + do 3 eexists. split; [reflexivity|]. split; [split; [reflexivity|]; exists []; split; [exact KS|reflexivity]|apply same_slot, R].
      + cbn [map] in EK. injection EK as EK _. unfold get_kv. rewrite EK. cbn [obind fst snd]. do 3 eexists. split; [reflexivity|]. split; [split; [reflexivity|]; eexists; split; [exact KS|reflexivity]|apply same_slot, R].
    - rewrite FI. destruct L as [|f L]; [destruct (items_at c i) eqn:EE; [|discriminate]|destruct (items_at c i) as [|[k v] l] eqn:EE; [discriminate|]]; cbn [hd_error].
      + do 3 eexists. split; [reflexivity|]. split; [split; [reflexivity|]; exists []; split; [exact KS|reflexivity]|apply same_slot, R].
      + cbn [map] in EK. injection EK as EK _. unfold get_kv. rewrite EK. cbn [obind fst snd]. do 3 eexists. split; [reflexivity|]. split; [split; [reflexivity|]; eexists; split; [exact KS|]|apply same_slot, R].
        cbn [map fst]. unfold visit. rewrite (VIS k v (or_introl eq_refl)). reflexivity.
    - rewrite EI. cbn [obind]. do 3 eexists. split; [reflexivity|]. split; [split; [reflexivity|]; eexists; split; [exact KS|reflexivity]|apply same_slot, R].
    - rewrite EI. cbn [obind]. do 3 eexists. split; [reflexivity|]. split; [split; [reflexivity|]; eexists; split; [exact KS|]|apply same_slot, R]. f_equal.
      generalize (x_s x). clear - VIS. induction (items_at c i) as [|[k v] l IH]; intros st; [reflexivity|]. cbn [map fold_left fst snd]. unfold visit at 2. rewrite (VIS k v (or_introl eq_refl)). apply IH. intros k' v' H. apply VIS. right. exact H.
    - do 3 eexists. split; [reflexivity|]. split; [split; [reflexivity|]; eexists; split; [exact KS|]|apply same_slot, R]. rewrite NUM, map_length. do 2 f_equal. lia.
    - do 3 eexists. split; [reflexivity|]. split; [split; [reflexivity|]; exists (items_at c i); split; [apply (trip_slot hash _ _ _ _ T)|]|apply same_slot, R]. rewrite EF, <- sizes_lens. reflexivity.
  Qed.
  Lemma sec_ok l : forall c sp x, crel c sp -> Forall aok l -> exists c' x' sp', run_acts c x l = Some (c', x') /\ does_sec sp x l sp' x' /\ crel c' sp'.
  Proof.
    induction l as [|[i a] l IH]; intros c sp x R F; cbn [run_acts]; [exists c, x, sp; split; [reflexivity|]; split; [constructor|exact R]|].
    inversion F as [|? ? F1 F2]; subst. destruct (act_ok c sp i a x R F1) as (s' & x1 & sp1 & -> & D1 & R1).
    destruct (IH _ _ x1 R1 F2) as (c2 & x2 & sp2 & E2 & D2 & R2). exists c2, x2, sp2. split; [exact E2|]. split; [econstructor; eauto|exact R2].
  Qed.

  (** The sections of a program are on the slots of their keys. *)
  Inductive wf : prog -> Prop :=
  | wf_ret : wf Ret
  | wf_sec l k : Forall aok l -> (forall sp x sp' x', does_sec sp x l sp' x' -> wf (k x')) -> wf (Sec l k)
  | wf_local f k : wf k -> wf (Local f k)
  | wf_peek i k : i < 32 -> wf k -> wf (Peek i k).
  Lemma wf_one i a k : aok (i, a) -> (forall sp x sp' x', does_act i a sp x sp' x' -> wf (k x')) -> wf (Sec [(i, a)] k).
  Proof. intros A H. constructor; [repeat constructor; apply A|]. intros sp x sp' x' D. inversion D as [|? ? ? ? ? ? ? ? ? D1 D2]; subst. inversion D2; subst. eapply H; eauto. Qed.
  Lemma wf_first p w mv n : forall i, i + N.of_nat n <= 32 -> wf (first_from n i p w mv).
  Proof.
    induction n as [|n IH]; intros i Hi; cbn [first_from]; [constructor|]. assert (I32 : i < 32) by lia. assert (NX : wf (first_from n (i + 1) p w mv)) by (apply IH; lia). destruct w.
    - apply wf_one; [split; [exact I32|exact I]|]. intros sp x sp' x' (_ & keys & KS & ->). cbn [x_keys]. destruct keys as [|k keys]; cbn [firstn]; [exact NX|].
      apply wf_one; [split; [exact I32|]|intros; constructor]. cbn. apply (proj1 (proj2 KS) k). left. reflexivity.
    - apply wf_one; [split; [exact I32|exact I]|]. intros sp x sp' x' _. destruct (x_hit x'); [constructor|exact NX].
  Qed.
  Lemma wf_keys i p mv rest keys : i < 32 -> (forall k, In k keys -> grp k = i) -> wf rest -> wf (each_keys i keys p mv rest).
  Proof.
    intros Hi G W. induction keys as [|k keys IH]; [exact W|]. cbn [each_keys]. apply wf_one; [split; [exact Hi|apply G; left; reflexivity]|]. intros. apply IH. intros k' H'. apply G. right. exact H'.
  Qed.
  Lemma wf_each p w mv rest n : wf rest -> forall i, i + N.of_nat n <= 32 -> wf (each_from n i p w mv rest).
  Proof.
    intros W. induction n as [|n IH]; intros i Hi; cbn [each_from]; [exact W|]. assert (I32 : i < 32) by lia. assert (NX : wf (each_from n (i + 1) p w mv rest)) by (apply IH; lia). destruct w.
    - constructor; [exact I32|]. apply wf_one; [split; [exact I32|exact I]|]. intros sp x sp' x' (_ & keys & KS & ->). cbn [x_keys]. apply wf_keys; [exact I32| |exact NX]. intros k H. apply (proj1 (proj2 KS) k), H.
    - apply wf_one; [split; [exact I32|exact I]|]. intros. exact NX.
  Qed.
  Lemma wf_sum a n : (a = ACount \/ a = AEff) -> forall i, i + N.of_nat n <= 32 -> wf (sum_prog a n i).
  Proof.
    intros A. induction n as [|n IH]; intros i Hi; cbn [sum_prog]; [constructor|]. apply wf_one; [split; [cbn; lia|cbn; destruct A as [->| ->]; exact I]|]. intros. apply IH. lia.
  Qed.
  Lemma wf_prog c : wf (prog_of hash c).
  Proof.
    destruct c; cbn [prog_of].
    - apply wf_one; [split; [apply (grp_lt hash)|reflexivity]|intros; constructor].
    - constructor; [|intros; constructor]. apply Forall_forall. intros e H. apply in_map_iff in H. destruct H as ([k p] & <- & _). split; [apply (grp_lt hash)|reflexivity].
    - apply wf_first. unfold slots32, NUM_CACHE_SLOTS. cbn. lia.
    - constructor. apply wf_each; [repeat constructor|]. unfold slots32, NUM_CACHE_SLOTS. cbn. lia.
    - apply wf_sum; [auto|]. unfold slots32, NUM_CACHE_SLOTS. cbn. lia.
    - apply wf_sum; [auto|]. unfold slots32, NUM_CACHE_SLOTS. cbn. lia.
    - constructor.
    - constructor.
  Qed.

  (** * Invariant *)
  Definition body (p : pc S) (i : N) : Prop := match p with PBody l _ _ _ => In i (sec_slots l) | _ => False end.
  Definition thread_ok (c A : cache) (p : pc S) (x : athr) : Prop :=
    match p with
    | PIdle => x = AIdle
    | PMain ca => x = ACalled ca
    | PGo p x0 => x = ARun p x0 /\ wf p
    | PLock l k x0 got todo => x = ARun (Sec l k) x0 /\ wf (Sec l k) /\ got ++ todo = sec_slots l
    | PBody l k x0 r => exists cf xf, run_acts c x0 r = Some (cf, xf) /\ x = ARun (k xf) xf /\ wf (k xf) /\ incl (map fst r) (sec_slots l) /\
        forall i, In i (sec_slots l) -> c_slots A i = c_slots cf i
    | PUn k x0 todo => x = ARun (k x0) x0 /\ wf (k x0)
    | PExcl ca f => x = ACalled ca /\ excl_of hash buckets ca = Some f
    | PRet x0 => x = ADone x0
    end.
  Variable n : nat.
  Record ginv (y : sys S) (A : cache) (a : asys) : Prop := {
    g_rel : crel A (a_sp a);
    g_cap : c_cap (y_c y) = c_cap A /\ c_mcap (y_c y) = c_mcap A;
    g_main : forall t u m1 m2, t <> u -> main_of (y_pc y t) = Some m1 -> main_of (y_pc y u) = Some m2 -> m1 = MS /\ m2 = MS;
    g_held : forall t u j, t <> u -> In j (slots_held (y_pc y t)) -> ~ In j (slots_held (y_pc y u));
    g_fin : forall t, (n <= t)%nat -> y_pc y t = PIdle;
    g_thr : forall t, thread_ok (y_c y) A (y_pc y t) (a_th a t);
    g_free : forall i, (forall t, ~ body (y_pc y t) i) -> c_slots (y_c y) i = c_slots A i
  }.
  Lemma upd_same (f : nat -> pc S) t p : upd f t p t = p. Proof. unfold upd. rewrite Nat.eqb_refl. reflexivity. Qed.
  Lemma upd_other (f : nat -> pc S) t p u : u <> t -> upd f t p u = f u. Proof. unfold upd. intros H. apply Nat.eqb_neq in H. rewrite H. reflexivity. Qed.
  Lemma aupd_same f t p : aupd f t p t = p. Proof. unfold aupd. rewrite Nat.eqb_refl. reflexivity. Qed.
  Lemma aupd_other f t p u : u <> t -> aupd f t p u = f u. Proof. unfold aupd. intros H. apply Nat.eqb_neq in H. rewrite H. reflexivity. Qed.
  Lemma body_held p i : body p i -> In i (slots_held p). Proof. destruct p; cbn; auto; contradiction. Qed.

  Lemma body_dec p i : body p i \/ ~ body p i.
  Proof. destruct p as [| | | |l k x r| | |]; cbn; auto. destruct (in_dec N.eq_dec i (sec_slots l)); auto. Qed.
  Lemma slots_in (l : list (N * act)) i : In i (sec_slots l) <-> In i (map fst l).
  Proof. apply slotset_in. Qed.
  Lemma alive y A a t : ginv y A a -> y_pc y t <> PIdle -> (t < n)%nat.
  Proof. intros G H. destruct (Nat.lt_ge_cases t n) as [L|L]; [exact L|]. exfalso. apply H, (g_fin _ _ _ G), L. Qed.

  (** A step that touches neither the memory nor the abstract records. *)
  Lemma quiet y A a t p' x' : ginv y A a -> (t < n)%nat -> thread_ok (y_c y) A p' x' ->
    (forall u m b, u <> t -> main_of p' = Some m -> main_of (y_pc y u) = Some b -> m = MS /\ b = MS) ->
    (forall u j, u <> t -> In j (slots_held p') -> ~ In j (slots_held (y_pc y u))) ->
    (forall i, body (y_pc y t) i -> ~ body p' i -> c_slots (y_c y) i = c_slots A i) ->
    ginv (mkSys (y_c y) (upd (y_pc y) t p')) A (mkA (a_sp a) (aupd (a_th a) t x')).
  Proof.
    intros [G1 G2 G3 G4 G5 G6 G7] Ht TH MA SL FR. constructor; cbn [y_c y_pc a_sp a_th]; auto.
    - intros u v m1 m2 NE M1 M2. destruct (Nat.eq_dec u t) as [->|NU], (Nat.eq_dec v t) as [->|NV]; try congruence; rewrite ?upd_same in *; rewrite ?(upd_other _ _ _ _ NU) in *; rewrite ?(upd_other _ _ _ _ NV) in *; [exact (MA v m1 m2 NV M1 M2)| |exact (G3 u v m1 m2 NE M1 M2)]. destruct (MA u m2 m1 NU M2 M1). auto.
    - intros u v j NE H1 H2. destruct (Nat.eq_dec u t) as [->|NU], (Nat.eq_dec v t) as [->|NV]; try congruence; rewrite ?upd_same in *; rewrite ?(upd_other _ _ _ _ NU) in *; rewrite ?(upd_other _ _ _ _ NV) in *; [exact (SL v j NV H1 H2)|exact (SL u j NU H2 H1)|exact (G4 u v j NE H1 H2)].
    - intros u Hu. rewrite upd_other by lia. apply G5, Hu.
    - intros u. destruct (Nat.eq_dec u t) as [->|NU]; [rewrite upd_same, aupd_same; exact TH|]. rewrite upd_other, aupd_other by exact NU. apply G6.
    - intros i H. destruct (body_dec (y_pc y t) i) as [B|B].
      + apply FR; [exact B|]. specialize (H t). rewrite upd_same in H. exact H.
      + apply G7. intros u. destruct (Nat.eq_dec u t) as [->|NU]; [exact B|]. specialize (H u). rewrite upd_other in H by exact NU. exact H.
  Qed.
  (** The same for the transitions that keep or drop locks. *)
  Lemma quiet_keep y A a t p' x' : ginv y A a -> y_pc y t <> PIdle -> thread_ok (y_c y) A p' x' ->
    (main_of p' = None \/ main_of p' = main_of (y_pc y t)) -> incl (slots_held p') (slots_held (y_pc y t)) ->
    (forall i, body (y_pc y t) i -> ~ body p' i -> c_slots (y_c y) i = c_slots A i) ->
    ginv (mkSys (y_c y) (upd (y_pc y) t p')) A (mkA (a_sp a) (aupd (a_th a) t x')).
  Proof.
    intros G NI TH MA SL FR. apply quiet; auto; [eapply alive; eauto| |].
    - intros u m b NU M1 M2. destruct MA as [MA|MA]; [congruence|]. rewrite MA in M1. eapply (g_main _ _ _ G); [|exact M1|exact M2]. auto.
    - intros u j NU H1. eapply (g_held _ _ _ G); [|apply SL, H1]. auto.
  Qed.
  (** A thread of which nothing is asked but its own state. *)
  Lemma aupd_id (a : asys) t x : a_th a t = x -> forall u, aupd (a_th a) t x u = a_th a u.
  Proof. intros H u. unfold aupd. destruct (Nat.eqb_spec u t) as [->|]; [auto|reflexivity]. Qed.
  Lemma ginv_ext y A a f : ginv y A (mkA (a_sp a) f) -> (forall u, f u = a_th a u) -> ginv y A a.
  Proof. intros [G1 G2 G3 G4 G5 G6 G7] H. constructor; auto. intros t. rewrite <- H. apply G6. Qed.
  Lemma quiet_same y A a t p' : ginv y A a -> y_pc y t <> PIdle -> thread_ok (y_c y) A p' (a_th a t) ->
    (main_of p' = None \/ main_of p' = main_of (y_pc y t)) -> incl (slots_held p') (slots_held (y_pc y t)) ->
    (forall i, body (y_pc y t) i -> ~ body p' i -> c_slots (y_c y) i = c_slots A i) -> ginv (mkSys (y_c y) (upd (y_pc y) t p')) A a.
  Proof. intros G NI TH MA SL FR. eapply ginv_ext; [eapply quiet_keep; eauto|]. apply aupd_id. reflexivity. Qed.

  (** The beginning of a section: its effect on the abstract records. *)
  Lemma enter_sec y A a t l k x got : ginv y A a -> y_pc y t = PLock l k x got [] ->
    exists A' sp' xf, ginv (mkSys (y_c y) (upd (y_pc y) t (PBody l k x l))) A' (mkA sp' (aupd (a_th a) t (ARun (k xf) xf))) /\ a_th a t = ARun (Sec l k) x /\ does_sec (a_sp a) x l sp' xf.
  Proof.
    intros G PCt. pose proof G as [G1 G2 G3 G4 G5 G6 G7]. pose proof (G6 t) as TH. rewrite PCt in TH. cbn in TH. destruct TH as (AT & W & GT). rewrite app_nil_r in GT. subst got.
    inversion W as [|? ? F K| |]; subst. destruct (sec_ok l A (a_sp a) x G1 F) as (A' & xf & sp' & RA & D & R').
    assert (HLD : forall u, u <> t -> forall i, In i (sec_slots l) -> ~ In i (slots_held (y_pc y u))) by (intros u NU i Hi; apply (G4 t u i); [auto|rewrite PCt; exact Hi]).
    assert (EQ : forall i, In i (map fst l) -> c_slots (y_c y) i = c_slots A i).
    { intros i Hi. apply slots_in in Hi. apply G7. intros u B. destruct (Nat.eq_dec u t) as [->|NU]; [rewrite PCt in B; exact B|]. apply body_held in B. exact (HLD u NU i Hi B). }
    destruct (run_local l A (y_c y) x A' xf RA EQ) as (d' & RD & E1 & E2 & C1 & C2 & C3 & C4).
    assert (Ht : (t < n)%nat) by (apply (alive y A a t G); rewrite PCt; discriminate).
    exists A', sp', xf. split; [|split; [exact AT|exact D]]. constructor; cbn [y_c y_pc a_sp a_th].
    - exact R'.
    - rewrite C3, C4. exact G2.
    - intros u v m1 m2 NE M1 M2. destruct (Nat.eq_dec u t) as [->|NU], (Nat.eq_dec v t) as [->|NV]; try congruence; rewrite ?upd_same in *; rewrite ?(upd_other _ _ _ _ NU) in *; rewrite ?(upd_other _ _ _ _ NV) in *; [apply (G3 t v); auto; rewrite PCt; auto|apply (G3 u t); auto; rewrite PCt; auto|exact (G3 u v m1 m2 NE M1 M2)].
    - intros u v j NE H1 H2. destruct (Nat.eq_dec u t) as [->|NU], (Nat.eq_dec v t) as [->|NV]; try congruence; rewrite ?upd_same in *; rewrite ?(upd_other _ _ _ _ NU) in *; rewrite ?(upd_other _ _ _ _ NV) in *; [exact (HLD v NV j H1 H2)|exact (HLD u NU j H2 H1)|exact (G4 u v j NE H1 H2)].
    - intros u Hu. rewrite upd_other by lia. apply G5, Hu.
    - intros u. destruct (Nat.eq_dec u t) as [->|NU].
      + rewrite upd_same, aupd_same. cbn. exists d', xf. split; [exact RD|]. split; [reflexivity|]. split; [eapply K; exact D|]. split; [intros i Hi; apply slots_in, Hi|]. intros i Hi. symmetry. apply E1, slots_in, Hi.
      + rewrite upd_other, aupd_other by exact NU. pose proof (G6 u) as TU. pose proof (HLD u NU) as HU. destruct (y_pc y u) as [| | | |l' k' x' r'| | |]; try exact TU. cbn in *. destruct TU as (cf & xf' & T1 & T2 & T3 & T4 & T5). exists cf, xf'. repeat (split; auto). intros i Hi. rewrite <- (T5 i Hi). apply E2. intros Hi'. apply (HU i); [apply slots_in, Hi'|exact Hi].
    - intros i H. assert (NI : ~ In i (map fst l)) by (intros Hi; apply (H t); rewrite upd_same; apply slots_in, Hi). destruct (E2 i NI) as [_ ->]. apply G7. intros u. destruct (Nat.eq_dec u t) as [->|NU]; [rewrite PCt; auto|]. specialize (H u). rewrite upd_other in H by exact NU. exact H.
  Qed.
  (** One act of a section. *)
  Lemma body_step y A a t l k x i ac r s' x' : ginv y A a -> y_pc y t = PBody l k x ((i, ac) :: r) -> exec_act hash ac (c_slots (y_c y) i) x = Some (s', x') ->
    ginv (mkSys (with_slot (y_c y) i s') (upd (y_pc y) t (PBody l k x' r))) A a.
  Proof.
    intros G PCt EX. pose proof G as [G1 G2 G3 G4 G5 G6 G7]. pose proof (G6 t) as TH. rewrite PCt in TH. cbn [thread_ok run_acts] in TH. rewrite EX in TH. destruct TH as (cf & xf & T1 & T2 & T3 & T4 & T5).
    assert (Ii : In i (sec_slots l)) by (apply T4; left; reflexivity).
    assert (HLD : forall u, u <> t -> forall j, In j (sec_slots l) -> ~ In j (slots_held (y_pc y u))) by (intros u NU j Hj; apply (G4 t u j); [auto|rewrite PCt; exact Hj]).
    assert (Ht : (t < n)%nat) by (apply (alive y A a t G); rewrite PCt; discriminate).
    constructor; cbn [y_c y_pc a_sp a_th].
    - exact G1.
    - exact G2.
    - intros u v m1 m2 NE M1 M2. destruct (Nat.eq_dec u t) as [->|NU], (Nat.eq_dec v t) as [->|NV]; try congruence; rewrite ?upd_same in *; rewrite ?(upd_other _ _ _ _ NU) in *; rewrite ?(upd_other _ _ _ _ NV) in *; [apply (G3 t v); auto; rewrite PCt; auto|apply (G3 u t); auto; rewrite PCt; auto|exact (G3 u v m1 m2 NE M1 M2)].
    - intros u v j NE H1 H2. destruct (Nat.eq_dec u t) as [->|NU], (Nat.eq_dec v t) as [->|NV]; try congruence; rewrite ?upd_same in *; rewrite ?(upd_other _ _ _ _ NU) in *; rewrite ?(upd_other _ _ _ _ NV) in *; [exact (HLD v NV j H1 H2)|exact (HLD u NU j H2 H1)|exact (G4 u v j NE H1 H2)].
    - intros u Hu. rewrite upd_other by lia. apply G5, Hu.
    - intros u. destruct (Nat.eq_dec u t) as [->|NU].
      + rewrite upd_same. cbn. exists cf, xf. repeat (split; auto). intros j Hj. apply T4. right. exact Hj.
      + rewrite upd_other by exact NU. pose proof (G6 u) as TU. pose proof (HLD u NU i Ii) as HU. destruct (y_pc y u) as [| | | |l2 k2 x2 r2| | |]; try exact TU. cbn in *. destruct TU as (cf2 & xf2 & U1 & U2 & U3 & U4 & U5).
        assert (SM : forall j, In j (sec_slots l2) -> c_slots (with_slot (y_c y) i s') j = c_slots (y_c y) j) by (intros j Hj; rewrite slot_at; destruct (N.eqb_spec j i) as [->|]; [contradiction|reflexivity]).
        destruct (run_local r2 (y_c y) (with_slot (y_c y) i s') x2 cf2 xf2 U1) as (d' & RD & E1 & E2 & _); [intros j Hj; apply SM, U4, Hj|]. exists d', xf2. repeat (split; auto). intros j Hj. rewrite (U5 j Hj). destruct (in_dec N.eq_dec j (map fst r2)) as [J|J]; [symmetry; apply E1, J|]. destruct (E2 j J) as [-> ->]. symmetry. apply SM, Hj.
    - intros j H. rewrite slot_at. destruct (N.eqb_spec j i) as [->|NJ]; [exfalso; apply (H t); rewrite upd_same; exact Ii|]. apply G7. intros u. destruct (Nat.eq_dec u t) as [->|NU]; [specialize (H t); rewrite upd_same in H; rewrite PCt; exact H|]. specialize (H u). rewrite upd_other in H by exact NU. exact H.
  Qed.
  (** A call under the exclusive lock. *)
  Lemma excl_step y A a t ca f : ginv y A a -> y_pc y t = PExcl ca f ->
    exists c' sp', f (y_c y) = Some c' /\ astep a ETau (mkA sp' (aupd (a_th a) t (ADone (start_loc ca)))) /\
      ginv (mkSys c' (upd (y_pc y) t (PRet (start_loc ca)))) c' (mkA sp' (aupd (a_th a) t (ADone (start_loc ca)))).
  Proof.
    intros G PCt. pose proof G as [G1 G2 G3 G4 G5 G6 G7]. pose proof (G6 t) as TH. rewrite PCt in TH. cbn in TH. destruct TH as (AT & EX).
    assert (Ht : (t < n)%nat) by (apply (alive y A a t G); rewrite PCt; discriminate).
    assert (QU : forall u, u <> t -> main_of (y_pc y u) = None).
    { intros u NU. destruct (main_of (y_pc y u)) as [m|] eqn:M; [|reflexivity]. destruct (G3 t u MX m) as [? _]; [auto|rewrite PCt; reflexivity|exact M|discriminate]. }
    assert (NB : forall u i, ~ body (y_pc y u) i) by (intros u i B; destruct (Nat.eq_dec u t) as [->|NU]; [rewrite PCt in B; exact B|specialize (QU u NU); destruct (y_pc y u); cbn in *; try contradiction; discriminate]).
    assert (R : crel (y_c y) (a_sp a)) by (apply (crel_ext hash buckets S A); [exact G1|apply G2|apply G2|intros g _; apply G7; intros u; apply NB]).
    assert (NR : forall u p x, a_th a u <> ARun p x).
    { intros u p x. destruct (Nat.eq_dec u t) as [->|NU]; [congruence|]. pose proof (G6 u) as TU. specialize (QU u NU). destruct (y_pc y u); cbn in *; try discriminate; rewrite TU; discriminate. }
    assert (FIN : forall c' sp', crel c' sp' -> ginv (mkSys c' (upd (y_pc y) t (PRet (start_loc ca)))) c' (mkA sp' (aupd (a_th a) t (ADone (start_loc ca))))).
    { intros c' sp' R'. constructor; cbn [y_c y_pc a_sp a_th]; auto.
      - intros u v m1 m2 NE M1 M2. destruct (Nat.eq_dec u t) as [->|NU]; [rewrite upd_same in M1; discriminate|]. rewrite upd_other in M1 by exact NU. rewrite (QU u NU) in M1. discriminate.
      - intros u v j NE H1 H2. destruct (Nat.eq_dec u t) as [->|NU]; [rewrite upd_same in H1; exact H1|]. rewrite upd_other in H1 by exact NU. specialize (QU u NU). destruct (y_pc y u); cbn in *; try contradiction; discriminate.
      - intros u Hu. rewrite upd_other by lia. apply G5, Hu.
      - intros u. destruct (Nat.eq_dec u t) as [->|NU]; [rewrite upd_same, aupd_same; reflexivity|]. rewrite upd_other, aupd_other by exact NU. pose proof (G6 u) as TU. specialize (QU u NU). destruct (y_pc y u); cbn in *; try exact TU; discriminate. }
    destruct ca; try discriminate EX; injection EX as <-; cbn [start_loc] in *.
    - destruct (exec_ok hash buckets buckets_pos S (y_c y) (a_sp a) (OClear S) R) as (r & c' & sp' & E1 & S1 & R1). cbn [exec] in E1. destruct (cache_clear buckets (y_c y)) as [c1|]; [|discriminate]. cbn [obind] in E1. injection E1 as <- <- E1. exists c1, sp'. split; [reflexivity|]. split; [eapply as_clear; eauto|apply FIN, R1].
    - destruct (exec_ok hash buckets buckets_pos S (y_c y) (a_sp a) (ORebuild S cap mcap) R) as (r & c' & sp' & E1 & S1 & R1). cbn [exec] in E1. destruct (cache_rebuild hash buckets (y_c y) cap mcap) as [c1|]; [|discriminate]. cbn [obind] in E1. injection E1 as <- <- E1. exists c1, sp'. split; [reflexivity|]. split; [eapply as_rebuild; eauto|apply FIN, R1].
  Qed.

  Inductive asteps : asys -> asys -> Prop := ast_0 a : asteps a a | ast_1 a b : astep a ETau b -> asteps a b.
  Lemma act_step y A a t c' p' : ginv y A a -> cact hash (y_c y) (y_pc y t) = Next c' p' -> exists A' a', asteps a a' /\ ginv (mkSys c' (upd (y_pc y) t p')) A' a'.
  Proof.
    intros G C. pose proof (g_thr _ _ _ G t) as TH. destruct (y_pc y t) as [|ca|p x|l k x got todo|l k x r|k x todo|ca f|x] eqn:PCt; cbn [cact] in C; try discriminate.
    - cbn in TH. destruct TH as [AT W]. destruct p as [|l k|f k|i k]; injection C as <- <-.
      + exists A. eexists. split; [apply ast_1, as_end, AT|]. eapply quiet_keep; [exact G|rewrite PCt; discriminate|reflexivity|left; reflexivity|intros j []|rewrite PCt; intros ? []].
      + exists A, a. split; [constructor|]. eapply quiet_same; [exact G|rewrite PCt; discriminate|cbn; auto|right; rewrite PCt; reflexivity|intros j []|rewrite PCt; intros ? []].
      + exists A. eexists. split; [apply ast_1, as_local, AT|]. inversion W; subst. eapply quiet_keep; [exact G|rewrite PCt; discriminate|cbn; auto|right; rewrite PCt; reflexivity|intros j []|rewrite PCt; intros ? []].
      + exists A. eexists. split; [eapply ast_1, as_peek, AT|]. inversion W; subst. eapply quiet_keep; [exact G|rewrite PCt; discriminate|cbn; auto|right; rewrite PCt; reflexivity|intros j []|rewrite PCt; intros ? []].
    - destruct todo; [|discriminate]. injection C as <- <-. destruct (enter_sec y A a t l k x got G PCt) as (A' & sp' & xf & G' & AT & D). exists A'. eexists. split; [eapply ast_1, as_sec; eauto|exact G'].
    - destruct r as [|[i ac] r].
      + injection C as <- <-. cbn in TH. destruct TH as (cf & xf & T1 & T2 & T3 & T4 & T5). injection T1 as <- <-. exists A, a. split; [constructor|]. eapply quiet_same; [exact G|rewrite PCt; discriminate|cbn; auto|right; rewrite PCt; reflexivity|rewrite PCt; cbn; intros j Hj; apply in_rev, Hj|rewrite PCt; intros i B _; symmetry; apply T5, B].
      + destruct (exec_act hash ac (c_slots (y_c y) i) x) as [[s' x']|] eqn:EX; [|discriminate]. injection C as <- <-. exists A, a. split; [constructor|]. eapply body_step; eauto.
    - cbn in TH. destruct TH as [AT W]. destruct todo as [|j todo]; injection C as <- <-; exists A, a; (split; [constructor|]).
      + eapply quiet_same; [exact G|rewrite PCt; discriminate|cbn; auto|right; rewrite PCt; reflexivity|intros j []|rewrite PCt; intros ? []].
      + eapply quiet_same; [exact G|rewrite PCt; discriminate|cbn; auto|right; rewrite PCt; reflexivity|rewrite PCt; cbn; intros i Hi; right; exact Hi|rewrite PCt; intros ? []].
    - destruct (excl_step y A a t ca f G PCt) as (c1 & sp' & E1 & ST & G'). rewrite E1 in C. injection C as <- <-. exists c1. eexists. split; [apply ast_1, ST|exact G'].
  Qed.
  Lemma act_defined y A a t : ginv y A a -> cact hash (y_c y) (y_pc y t) <> UB.
  Proof.
    intros G. pose proof (g_thr _ _ _ G t) as TH. destruct (y_pc y t) as [|ca|p x|l k x got todo|l k x r|k x todo|ca f|x] eqn:PCt; cbn [cact]; try discriminate.
    - destruct p; discriminate.
    - destruct todo; discriminate.
    - destruct r as [|[i ac] r]; [discriminate|]. cbn [thread_ok run_acts] in TH. destruct TH as (cf & xf & T1 & _). destruct (exec_act hash ac (c_slots (y_c y) i) x) as [[s' x']|]; discriminate.
    - destruct todo; discriminate.
    - destruct (excl_step y A a t ca f G PCt) as (c1 & sp' & E1 & _). rewrite E1. discriminate.
  Qed.
  Definition matches (e : ev S) (a a' : asys) : Prop := match e with ETau => asteps a a' | _ => astep a e a' end.
  Lemma step_ok y A a e y' : ginv y A a -> step hash buckets n y e y' -> exists A' a', matches e a a' /\ ginv y' A' a'.
  Proof.
    intros G ST. destruct ST as [t c Ht PCt|t c PCt FR|t l k x got j todo PCt FR|t c' p' C|t x PCt].
    - exists A. eexists. split; [apply as_call; pose proof (g_thr _ _ _ G t) as TH; rewrite PCt in TH; exact TH|]. apply quiet; [exact G|exact Ht|reflexivity|intros; discriminate|cbn; intros ? ? _ []|rewrite PCt; intros ? []].
    - pose proof (g_thr _ _ _ G t) as TH. rewrite PCt in TH. cbn in TH. unfold start. destruct (excl_of hash buckets c) as [f|] eqn:EX.
      + exists A, a. split; [constructor|]. eapply ginv_ext; [|apply aupd_id; reflexivity]. apply quiet; [exact G|apply (alive y A a t G); rewrite PCt; discriminate|cbn; auto| | |rewrite PCt; intros ? []].
        * intros u m b NU M1 M2. destruct (FR u b NU M2) as [X _]. discriminate.
        * cbn. intros u j NU [].
      + exists A. eexists. split; [apply ast_1, as_begin; eauto|]. apply quiet; [exact G|apply (alive y A a t G); rewrite PCt; discriminate|cbn; split; [reflexivity|apply wf_prog]| | |rewrite PCt; intros ? []].
        * intros u m b NU M1 M2. cbn in M1. injection M1 as <-. apply (FR u b NU M2).
        * cbn. intros u j NU [].
    - pose proof (g_thr _ _ _ G t) as TH. rewrite PCt in TH. cbn in TH. destruct TH as (AT & W & GT). exists A, a. split; [constructor|]. eapply ginv_ext; [|apply aupd_id; reflexivity].
      apply quiet; [exact G|apply (alive y A a t G); rewrite PCt; discriminate|cbn; rewrite <- app_assoc; auto| | |rewrite PCt; intros ? []].
      + intros u m b NU M1 M2. cbn in M1. apply (g_main _ _ _ G t u); auto. rewrite PCt. exact M1.
      + cbn. intros u i NU Hi. apply in_app_or in Hi. destruct Hi as [Hi|[<-|[]]]; [apply (g_held _ _ _ G t u); [auto|rewrite PCt; exact Hi]|apply FR, NU].
    - destruct (act_step y A a t c' p' G C) as (A' & a' & X & G'). exists A', a'. split; [exact X|exact G'].
    - pose proof (g_thr _ _ _ G t) as TH. rewrite PCt in TH. exists A. eexists. split; [apply as_ret, TH|]. eapply quiet_keep; [exact G|rewrite PCt; discriminate|reflexivity|left; reflexivity|intros j []|rewrite PCt; intros ? []].
  Qed.
  Definition ainit (cap : N) (mcap : Z) (st : S) : asys := mkA (sp_new S cap mcap st) (fun _ => AIdle).
  Lemma init_ginv cap mcap st : ginv (init buckets S cap mcap) (cache_new buckets cap mcap) (ainit cap mcap st).
  Proof.
    constructor; cbn; auto; try (intros; discriminate). apply (new_rel hash buckets buckets_pos).
  Qed.
  Lemma run_inv y0 A0 a0 tr y : ginv y0 A0 a0 -> run hash buckets n y0 tr y -> exists A a, arun a0 tr a /\ ginv y A a.
  Proof.
    intros G R. induction R as [y|y y1 tr y2 R IH ST|y y1 tr e y2 R IH NE ST].
    - exists A0, a0. split; [constructor|exact G].
    - destruct (IH G) as (A & a & R1 & G1). destruct (step_ok _ _ _ _ _ G1 ST) as (A' & a' & M & G2). exists A', a'. split; [|exact G2]. inversion M; subst; [exact R1|eapply arun_tau; eauto].
    - destruct (IH G) as (A & a & R1 & G1). destruct (step_ok _ _ _ _ _ G1 ST) as (A' & a' & M & G2). exists A', a'. split; [|exact G2]. destruct e; [eapply arun_ev; eauto|eapply arun_ev; eauto|congruence].
  Qed.
End Spec.
