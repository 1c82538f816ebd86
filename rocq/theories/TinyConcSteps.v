(** TinyDBM called by several threads: every transition keeps the invariant. *)
From Coq Require Import List NArith ZArith Bool Lia Arith.
Import ListNotations.
From Verif Require Import Bytes CodecModel DbmModel StatusModel HashMutexModel TinyModel TinyProofs TinyOps TinyProps TinyConcModel TinyConcProofs.
Local Open Scope N_scope.

Section Steps.
  Variable hash : bytes -> N -> N.
  Variable bucket_size : N -> N.
  Hypothesis hash_lt : forall k nb, 0 < nb -> hash k nb < nb.
  Hypothesis size_pos : forall n, 0 < bucket_size n.
  Variable ns : N.
  Context {S : Type}.
  Variable n : nat.
  Notation cslots := (cslots hash ns).
  Notation slots_of := (slots_of hash ns).
  Notation slot := (slot hash ns).
  Notation prog := (prog hash ns).
  Notation prog1 := (prog1 hash ns).
  Notation dirty := (dirty hash ns).
  Notation linking := (linking hash).
  Notation thread_ok := (thread_ok hash ns).
  Notation linv := (linv hash).
  Notation excl := (excl hash ns).
  Notation ginv := (ginv hash ns n).

  Definition inbody (p : pc S) (c : icall S) : Prop :=
    match p with
    | PTop c' _ _ | PWalk c' _ _ _ _ _ _ _ | PFree c' _ _ _ _ _ _ | PRes c' _ _ _ _ _ _ _ _ | PApp c' _ _ _ _ _ _ _ _ _
    | PNew c' _ _ _ _ _ | PLink c' _ _ _ _ _ _ | PNum c' _ _ _ => c' = c
    | _ => False
    end.
  Lemma body_facts p c : inbody p c ->
    (forall nb, slots_of nb p = cslots nb c) /\ mode_of p = (if ic_w c then MX else MS) /\ main_of p = Some MS /\
    (forall nb k, dirty nb p k <-> ic_w c = true /\ In (slot nb k) (cslots nb c)) /\ (forall x, matches p x <-> x = ACalled (CItems c)).
  Proof. destruct p; cbn; try easy; intros ->; repeat split; intros; tauto. Qed.

  Lemma seg_here (y : sys S) a L t i : ginv y a L -> i < t_nb (y_m y) -> In (i mod ns) (slots_of (t_nb (y_m y)) (y_pc y t)) ->
    linking (t_nb (y_m y)) (y_pc y t) = None -> seg (t_h (y_m y)) (t_b (y_m y) i) (L i) None.
  Proof.
    intros G Hi A NL. destruct (i_shape _ _ _ _ _ _ G i Hi) as [X|(u & X)]; [exact X|]. exfalso.
    destruct (Nat.eq_dec u t) as [->|NE]; [congruence|].
    destruct (linking_slots hash ns _ _ _ _ _ (i_thr _ _ _ _ _ _ G u) X) as [Y M].
    destruct (i_excl _ _ _ _ _ _ G t u ltac:(congruence)) as [_ E]. apply (E _ A Y). right. exact M.
  Qed.
  Lemma lin_upd nb hn hn' L i l' : linv nb hn L -> i < nb -> (hn <= hn')%nat ->
    (forall q, In q (locs l') -> (q < hn')%nat /\ (In q (locs (L i)) \/ (hn <= q)%nat)) ->
    (forall k, In k (keys l') -> hash k nb = i) -> NoDup (keys l') -> NoDup (locs l') -> linv nb hn' (updL L i l').
  Proof.
    intros [O K ND D] Hi HN LL KK N1 N2.
    assert (forall j q, j <> i -> In q (locs (L j)) -> (q < hn)%nat /\ ~ In q (locs (L i))) as FR.
    { intros j q Hj I. split; [|intros X; apply Hj; eapply D; eauto]. destruct (in_loc _ _ _ I) as (k & v & I'). apply K in I'. tauto. }
    constructor.
    - intros j Hj. rewrite updL_other by lia. apply O, Hj.
    - intros j q k v I. destruct (N.eq_dec j i) as [->|E].
      + rewrite updL_same in I. split; [apply KK; apply (in_map (fun n => fst (snd n))) in I; exact I|]. apply (in_map fst) in I. apply LL in I. tauto.
      + rewrite updL_other in I by exact E. apply K in I. destruct I. split; [assumption|lia].
    - intros j. destruct (N.eq_dec j i) as [->|E]; [rewrite updL_same; auto|]. rewrite updL_other by exact E. apply ND.
    - intros j1 j2 q I1 I2. destruct (N.eq_dec j1 i) as [->|E1], (N.eq_dec j2 i) as [->|E2]; auto.
      + rewrite updL_same in I1. rewrite updL_other in I2 by exact E2. destruct (FR _ _ E2 I2). apply LL in I1. destruct I1 as [_ [I1|I1]]; [contradiction|lia].
      + rewrite updL_same in I2. rewrite updL_other in I1 by exact E1. destruct (FR _ _ E1 I1). apply LL in I2. destruct I2 as [_ [I2|I2]]; [contradiction|lia].
      + rewrite updL_other in I1, I2 by assumption. eapply D; eauto.
  Qed.

  Lemma body_main nb f t p c : excl nb f -> inbody (f t) c -> inbody p c -> excl nb (upd f t p).
  Proof.
    intros E B B'. destruct (body_facts _ _ B) as (F1 & F2 & F3 & _). destruct (body_facts _ _ B') as (F1' & F2' & F3' & _). apply excl_sub; [exact E| |].
    - intros md. congruence.
    - intros j. rewrite F1, F1', F2, F2'. auto.
  Qed.

  (** No memory is changed. *)
  Lemma quiet (y : sys S) a L t c p' : ginv y a L -> (t < n)%nat -> inbody (y_pc y t) c -> inbody p' c ->
    linking (t_nb (y_m y)) (y_pc y t) = None -> pendp (y_pc y t) = 0%Z -> pendp p' = 0%Z ->
    thread_ok (y_m y) L (a_m a) p' -> ginv (mkSys (y_m y) (upd (y_pc y) t p')) a L.
  Proof.
    intros G Ht B B' NL P0 P1 TH. destruct (body_facts _ _ B) as (F1 & F2 & F3 & F4 & F5). destruct (body_facts _ _ B') as (F1' & F2' & F3' & F4' & F5').
    eapply (local_step hash bucket_size hash_lt size_pos ns n y a L t); eauto.
    - apply (i_lin _ _ _ _ _ _ G).
    - intros i Hi A _ [X|X]; [auto|congruence].
    - rewrite P0, P1. lia.
    - eapply body_main; eauto. apply (i_excl _ _ _ _ _ _ G).
    - intros x A _ ND [X|X]; [|exact X]. exfalso. apply ND. apply F4'. apply F4 in X. exact X.
    - apply F5'. apply F5. apply (i_abs _ _ _ _ _ _ G).
  Qed.

  (** One bucket is changed. *)
  Lemma bucket_step (y : sys S) a L t c k m' p' l' : ginv y a L -> (t < n)%nat -> inbody (y_pc y t) c -> inbody p' c ->
    ic_w c = true -> In (slot (t_nb (y_m y)) k) (cslots (t_nb (y_m y)) c) ->
    let nb := t_nb (y_m y) in let i := hash k nb in
    t_nb m' = nb -> (forall j, j <> i -> t_b m' j = t_b (y_m y) j) ->
    (forall q, (q < hnext (t_h (y_m y)))%nat -> ~ In q (locs (L i)) -> cell (t_h m') q = cell (t_h (y_m y)) q) ->
    (hnext (t_h (y_m y)) <= hnext (t_h m'))%nat ->
    (forall q, In q (locs l') -> (q < hnext (t_h m'))%nat /\ (In q (locs (L i)) \/ (hnext (t_h (y_m y)) <= q)%nat)) ->
    (forall x, In x (keys l') -> hash x nb = i) -> NoDup (keys l') -> NoDup (locs l') ->
    (t_num m' - t_num (y_m y) = Z.of_nat (length l') - Z.of_nat (length (L i)) - (pendp p' - pendp (y_pc y t)))%Z ->
    (seg (t_h m') (t_b m' i) l' None \/ linking nb p' = Some i) ->
    (linking nb (y_pc y t) = None \/ linking nb (y_pc y t) = Some i) ->
    thread_ok m' (updL L i l') (a_m a) p' -> ginv (mkSys m' (upd (y_pc y) t p')) a (updL L i l').
  Proof.
    intros G Ht B B' W IK nb i EN EB EC HN LL KK N1 N2 NU SH LK TH.
    destruct (body_facts _ _ B) as (F1 & F2 & F3 & F4 & F5). destruct (body_facts _ _ B') as (F1' & F2' & F3' & F4' & F5').
    assert (Hi : i < nb) by (apply hash_lt, (i_nb _ _ _ _ _ _ G)).
    assert (FR : forall j q, j <> i -> In q (locs (L j)) -> cell (t_h m') q = cell (t_h (y_m y)) q).
    { intros j q NE I. destruct (i_lin _ _ _ _ _ _ G) as [O K ND D]. apply EC; [|intros X; apply NE; eapply D; eauto].
      destruct (in_loc _ _ _ I) as (k' & v & I'). apply K in I'. tauto. }
    eapply (local_step hash bucket_size hash_lt size_pos ns n y a L t); eauto.
    - intros j Hj. destruct (N.eq_dec j i) as [->|NE]; [left; rewrite F1, F2, W; auto|]. right. rewrite updL_other by exact NE. split; [reflexivity|]. split; [apply EB, NE|].
      intros q. apply FR, NE.
    - apply lin_upd with (hn := hnext (t_h (y_m y))); auto. apply (i_lin _ _ _ _ _ _ G).
    - intros j Hj A _ X. destruct (N.eq_dec j i) as [->|NE]; [rewrite updL_same; exact SH|]. left. rewrite updL_other, EB by exact NE.
      destruct X as [X|X]; [|fold nb in X; destruct LK; congruence]. eapply seg_frame; [|exact X]. intros q. apply FR, NE.
    - pose proof (total_upd hash L i l' (N.to_nat nb) ltac:(lia)). fold nb. lia.
    - eapply body_main; eauto. apply (i_excl _ _ _ _ _ _ G).
    - intros x A _ ND [X|X].
      + exfalso. apply ND. apply F4'. apply F4 in X. exact X.
      + exfalso. apply ND. apply F4'. rewrite F1 in A. auto.
    - apply F5'. apply F5. apply (i_abs _ _ _ _ _ _ G).
  Qed.

  Lemma prog_next nb L C (c : icall S) k it r s : prog nb L C c ((k, it) :: r) s ->
    exists m1, (forall x, In (slot nb x) (cslots nb c) -> view hash nb L x = m1 x) /\
      (forall (s' : S) nv, ic_w c = true -> s' = snd (ref_item m1 k it (ic_w c) s) ->
         (forall x, fst (ref_item m1 k it (ic_w c) s) x = if beqb k x then nv else m1 x) -> prog1 nb L C c k r s' nv) /\
      (forall s' : S, s' = snd (ref_item m1 k it (ic_w c) s) -> (forall x, fst (ref_item m1 k it (ic_w c) s) x = m1 x) -> prog nb L C c r s') /\
      In (slot nb k) (cslots nb c) /\ wfc c /\ In (k, it) (ic_l c).
  Proof.
    intros (W & dn & D1 & D2 & D3). exists (fst (ref_items C dn (ic_w c) (ic_s c))).
    assert (E1 : ref_items C (dn ++ [(k, it)]) (ic_w c) (ic_s c) = ref_item (fst (ref_items C dn (ic_w c) (ic_s c))) k it (ic_w c) s).
    { rewrite ref_items_app. destruct (ref_items C dn (ic_w c) (ic_s c)) as [m1 s1]. cbn in D2. subst s1. cbn. destruct (ref_item m1 k it (ic_w c) s). reflexivity. }
    assert (IN : In (k, it) (ic_l c)) by (rewrite D1; apply in_or_app; right; left; reflexivity).
    split; [exact D3|]. split; [|split; [|split; [|auto]]].
    - intros s' nv W1 Es Em. split; [exact W|]. split; [exact W1|]. exists dn, it. rewrite E1. auto.
    - intros s' Es Em. split; [exact W|]. exists (dn ++ [(k, it)]). rewrite E1. split; [rewrite <- app_assoc; exact D1|]. split; [exact Es|].
      intros x Hx. rewrite Em. apply D3, Hx.
    - apply in_cslots. eauto.
  Qed.
  Lemma prog1_done nb L L' C (c : icall S) k r s nv : prog1 nb L C c k r s nv -> (forall x, view hash nb L' x = if beqb k x then nv else view hash nb L x) -> prog nb L' C c r s.
  Proof.
    intros (W & W1 & dn & it & D1 & D2 & D3 & D4) V. split; [exact W|]. exists (dn ++ [(k, it)]). split; [rewrite <- app_assoc; exact D1|]. split; [exact D2|].
    intros x Hx. rewrite V, D3. destruct (beqb k x); [reflexivity|apply D4, Hx].
  Qed.
  Lemma prog1_facts nb L C (c : icall S) k r s nv : prog1 nb L C c k r s nv -> ic_w c = true /\ In (slot nb k) (cslots nb c).
  Proof.
    intros (W & W1 & dn & it & D1 & _). split; [exact W1|]. apply in_cslots. exists k, it. split; [rewrite D1; apply in_or_app; right; left; reflexivity|reflexivity].
  Qed.
  Lemma prog_ext nb L L' C (c : icall S) r s : (forall x, view hash nb L' x = view hash nb L x) -> prog nb L C c r s -> prog nb L' C c r s.
  Proof. intros E (W & dn & D1 & D2 & D3). split; [exact W|]. exists dn. split; [exact D1|]. split; [exact D2|]. intros x Hx. rewrite E. apply D3, Hx. Qed.

  (** * Every transition on the memory *)
  Definition fine (y : sys S) (a : asys S) (L : N -> list node) (t : nat) (x : act_result S) : Prop :=
    match x with
    | Wait | Big => True
    | UB => False
    | Next m' p' => exists a' L', (a' = a \/ astep a ETau a') /\ ginv (mkSys m' (upd (y_pc y) t p')) a' L'
    end.
  Section One.
    Variables (y : sys S) (a : asys S) (L : N -> list node) (t : nat) (moved : bool).
    Hypothesis G : ginv y a L.
    Hypothesis Ht : (t < n)%nat.
    Let nb := t_nb (y_m y).
    Let H0 : 0 < nb := i_nb _ _ _ _ _ _ G.

    Lemma loc_lt i q : In q (locs (L i)) -> (q < hnext (t_h (y_m y)))%nat.
    Proof. intros I. destruct (in_loc _ _ _ I) as (k & v & I'). apply (l_key _ _ _ _ (i_lin _ _ _ _ _ _ G)) in I'. tauto. Qed.
    Lemma key_bucket i x : In x (keys (L i)) -> hash x nb = i.
    Proof. intros I. apply in_map_iff in I. destruct I as ([q [k v]] & <- & I). apply (l_key _ _ _ _ (i_lin _ _ _ _ _ _ G)) in I. tauto. Qed.

    Lemma walk_step c k it r s top parent p : y_pc y t = PWalk c k it r s top parent p -> fine y a L t (tact hash bucket_size ns moved (y_m y) (y_pc y t)).
    Proof.
      intros E. pose proof (i_thr _ _ _ _ _ _ G t) as T. rewrite E in T. cbn [TinyConcProofs.thread_ok] in T. fold nb in T.
      destruct T as (P & l1 & l2 & T1 & T2 & T3 & T4 & T5 & T6).
      assert (B : inbody (y_pc y t) c) by (rewrite E; reflexivity).
      destruct (prog_next _ _ _ _ _ _ _ _ P) as (m1 & V & N1 & N0 & IK & W & IL).
      pose proof (V k IK) as VK. unfold view in VK.
      destruct (i_lin _ _ _ _ _ _ G) as [LO LK LN LD].
      assert (QU : forall p', inbody p' c -> pendp p' = 0%Z -> thread_ok (y_m y) L (a_m a) p' ->
        exists a' L', (a' = a \/ astep a ETau a') /\ ginv (mkSys (y_m y) (upd (y_pc y) t p')) a' L').
      { intros p' B' P' TH. exists a, L. split; [auto|]. eapply quiet; eauto; rewrite E; reflexivity. }
      rewrite E. destruct p as [q|]; cbn [tact fine].
      - destruct l2 as [|[q' [k' v]] l2]; [cbn in T3; discriminate|]. cbn in T3. destruct T3 as (X & ch & HH & T3). injection X as <-.
        rewrite (des_ok _ _ _ _ _ HH).
        destruct (beqb_spec k k') as [<-|NE].
        + assert (AN : at_node hash (y_m y) L k q parent ch v) by (exists l1, l2; auto 10).
          assert (FK : m1 k = Some v).
          { rewrite <- VK, T1, find_app, (find_none _ _ T5). cbn. rewrite beqb_refl. reflexivity. }
          destruct it as [pr|cat dl].
          * destruct (on_full pr k v s) as [ac s'] eqn:EA.
            assert (CA : call m1 k pr s = (ac, s')) by (unfold call; rewrite FK; exact EA).
            assert (RI : ref_item m1 k (IProc pr) (ic_w c) s = (if ic_w c then act m1 k ac else m1, s')) by (cbn; unfold ref_process; rewrite CA; reflexivity).
            destruct (ic_w c) eqn:EW; [destruct ac as [| |v']|].
            -- apply QU; [reflexivity..|]. cbn. apply N0; rewrite RI; reflexivity.
            -- apply QU; [reflexivity..|]. cbn. fold nb. split; [|exists v; exact AN]. apply N1; rewrite ?RI; auto.
            -- apply QU; [reflexivity..|]. cbn. fold nb. split; [|exact AN]. apply N1; rewrite ?RI; auto.
            -- apply QU; [reflexivity..|]. cbn. apply N0; rewrite RI; reflexivity.
          * apply QU; [reflexivity..|]. cbn. fold nb. split; [|exact AN].
            apply N1; [destruct W as [W|W]; [exact W|destruct (W _ _ IL); discriminate]|reflexivity|]. intros x. cbn. rewrite FK. reflexivity.
        + apply QU; [reflexivity..|]. cbn. fold nb. split; [exact P|]. exists (l1 ++ [(q, (k', v))]), l2. split; [rewrite <- app_assoc; exact T1|].
          split; [apply seg_app; exists (Some q); split; [exact T2|]; cbn; eauto|]. split; [exact T3|]. split; [rewrite last_loc_snoc; reflexivity|]. split; [|exact T6].
          rewrite keys_app. intros I. apply in_app_or in I. cbn in I. destruct I as [I|[I|[]]]; [auto|congruence].
      - destruct l2 as [|[q' [k' v]] l2]; [|cbn in T3; destruct T3 as (X & _); discriminate]. rewrite app_nil_r in T1.
        assert (NI : ~ In k (keys (L (hash k nb)))) by (rewrite T1; exact T5).
        assert (FK : m1 k = None) by (rewrite <- VK; apply find_none, NI).
        assert (SG : seg (t_h (y_m y)) (t_b (y_m y) (hash k nb)) (L (hash k nb)) None) by (rewrite T1; exact T2).
        destruct it as [pr|cat dl].
        + destruct (on_empty pr k s) as [ac s'] eqn:EA.
          assert (CA : call m1 k pr s = (ac, s')) by (unfold call; rewrite FK; exact EA).
          assert (RI : ref_item m1 k (IProc pr) (ic_w c) s = (if ic_w c then act m1 k ac else m1, s')) by (cbn; unfold ref_process; rewrite CA; reflexivity).
          destruct (ic_w c) eqn:EW; [destruct ac as [| |v']|].
          * apply QU; [reflexivity..|]. cbn. apply N0; rewrite RI; reflexivity.
          * apply QU; [reflexivity..|]. cbn. apply N0; rewrite RI; [reflexivity|]. intros x. cbn. unfold adel. destruct (beqb_spec k x); [congruence|reflexivity].
          * apply QU; [reflexivity..|]. cbn. fold nb. split; [|auto]. apply N1; rewrite ?RI; auto.
          * apply QU; [reflexivity..|]. cbn. apply N0; rewrite RI; reflexivity.
        + apply QU; [reflexivity..|]. cbn. fold nb. split; [|auto].
          apply N1; [destruct W as [W|W]; [exact W|destruct (W _ _ IL); discriminate]|reflexivity|]. intros x. cbn. rewrite FK. reflexivity.
    Qed.

    (** The found record is replaced. *)
    Lemma replace_step c k r s q parent child old nv h' q' : inbody (y_pc y t) c -> pendp (y_pc y t) = 0%Z -> linking nb (y_pc y t) = None ->
      prog1 nb L (a_m a) c k r s (Some nv) -> at_node hash (y_m y) L k q parent child old ->
      holds h' q' child k nv -> changed (t_h (y_m y)) q h' q' ->
      exists a' L', (a' = a \/ astep a ETau a') /\
        ginv (mkSys (set_h (y_m y) h') (upd (y_pc y) t (if Nat.eqb q' q then PTop c r s else PLink c k r s parent (Some q') 0))) a' L'.
    Proof.
      intros B PE NL P (l1 & l2 & A1 & A2 & A3 & A4 & A5 & A6) HH (C1 & C2 & C3 & C4). fold nb in A1, A2.
      destruct (prog1_facts _ _ _ _ _ _ _ _ P) as [W IK]. destruct (i_lin _ _ _ _ _ _ G) as [LO LK LN LD].
      set (i := hash k nb) in *. set (l' := l1 ++ (q', (k, nv)) :: l2).
      destruct (LN i) as [NDk NDl]. rewrite A1 in NDl, NDk. rewrite locs_app in NDl. rewrite keys_app in NDk. cbn in NDl, NDk.
      apply NoDup_remove in NDl as [NDl NIl]. apply NoDup_remove in NDk as [NDk NIk].
      assert (IN : forall x, In x (locs l1) \/ In x (locs l2) -> In x (locs (L i))).
      { intros x X. rewrite A1, locs_app. apply in_or_app. cbn. tauto. }
      assert (IQ : In q (locs (L i))) by (rewrite A1, locs_app; apply in_or_app; cbn; auto).
      assert (NQ : ~ In q' (locs l1) /\ ~ In q' (locs l2)).
      { split; intros X; (destruct C2 as [->| ->]; [apply NIl, in_or_app; auto|]).
        - pose proof (loc_lt _ _ (IN _ (or_introl X))). lia.
        - pose proof (loc_lt _ _ (IN _ (or_intror X))). lia. }
      assert (S1 : seg h' (t_b (y_m y) i) l1 (Some q)).
      { eapply seg_frame; [|exact A2]. intros x X. apply C1; [eapply loc_lt, IN; auto|]. intros ->. apply NIl, in_or_app. auto. }
      assert (S2 : seg h' (Some q') ((q', (k, nv)) :: l2) None).
      { cbn. split; [reflexivity|]. exists child. split; [exact HH|]. eapply seg_frame; [|exact A4]. intros x X. apply C1; [eapply loc_lt, IN; auto|]. intros ->. apply NIl, in_or_app. auto. }
      assert (FI : forall x, view hash nb (updL L i l') x = if beqb k x then Some nv else view hash nb L x).
      { apply view_upd; [reflexivity| |].
        - intros x NE. unfold l'. rewrite A1, !find_app. cbn. destruct (beqb_spec x k) as [X|_]; [congruence|]. reflexivity.
        - unfold l'. rewrite find_app, (find_none _ _ A6). cbn. rewrite beqb_refl. reflexivity. }
      pose proof (prog1_done _ _ (updL L i l') _ _ _ _ _ _ P FI) as PD.
      exists a, (updL L i l'). split; [auto|].
      apply bucket_step with (c := c); auto; cbn [set_h t_nb t_h t_b t_num]; fold nb i.
      - destruct (Nat.eqb q' q); reflexivity.
      - intros x Hx Nx. apply C1; [exact Hx|]. intros ->. contradiction.
      - intros x X. unfold l' in X. rewrite locs_app in X. apply in_app_or in X. cbn in X.
        assert (In x (locs (L i)) \/ x = q') as [Y|Y] by (destruct X as [X|[X|X]]; auto).
        + pose proof (loc_lt _ _ Y). split; [lia|auto].
        + subst x. split; [exact C4|]. destruct C2 as [->| ->]; [left; exact IQ|right; lia].
      - intros x X. apply key_bucket. rewrite A1, keys_app. unfold l' in X. rewrite keys_app in X. exact X.
      - unfold l'. rewrite keys_app. cbn. apply NoDup_Add with (a := k) (l := keys l1 ++ keys l2); [apply Add_app|auto].
      - unfold l'. rewrite locs_app. cbn. apply NoDup_Add with (a := q') (l := locs l1 ++ locs l2); [apply Add_app|]. split; [exact NDl|].
        intros X. apply in_app_or in X. tauto.
      - rewrite PE. unfold l'. rewrite A1, !app_length. cbn [length]. destruct (Nat.eqb q' q); cbn [pendp]; lia.
      - destruct (Nat.eqb_spec q' q) as [EQ|NE]; [left|right; reflexivity]. unfold l'. apply seg_app. exists (Some q'). split; [rewrite EQ; exact S1|exact S2].
      - destruct (Nat.eqb_spec q' q) as [EQ|NE]; cbn [TinyConcProofs.thread_ok t_nb t_h t_b]; fold nb i; [exact PD|].
        split; [exact PD|]. split; [exact W|]. split; [exact IK|]. rewrite updL_same. exists l1, ((q', (k, nv)) :: l2), (Some q). auto.
    Qed.
    Lemma res_step c k r s q parent child old v : y_pc y t = PRes c k r s q parent child old v -> fine y a L t (tact hash bucket_size ns moved (y_m y) (y_pc y t)).
    Proof.
      intros E. pose proof (i_thr _ _ _ _ _ _ G t) as T. rewrite E in T. cbn [TinyConcProofs.thread_ok] in T. destruct T as [P AN].
      assert (AN' := AN). destruct AN' as (l1 & l2 & A1 & A2 & A3 & A4 & A5 & A6).
      rewrite E. cbn [tact]. destruct (fits (blen k) (blen v)) eqn:F; [|exact I].
      destruct (reser_ok _ _ _ _ _ v moved A3) as (h' & q' & R1 & R2 & R3); [eapply loc_lt; rewrite A1, locs_app; apply in_or_app; right; left; reflexivity|exact F|].
      rewrite R1. cbn [fine]. eapply replace_step; eauto; rewrite E; reflexivity.
    Qed.
    Lemma app_step c k r s q parent child old cat dl : y_pc y t = PApp c k r s q parent child old cat dl -> fine y a L t (tact hash bucket_size ns moved (y_m y) (y_pc y t)).
    Proof.
      intros E. pose proof (i_thr _ _ _ _ _ _ G t) as T. rewrite E in T. cbn [TinyConcProofs.thread_ok] in T. destruct T as [P AN].
      assert (AN' := AN). destruct AN' as (l1 & l2 & A1 & A2 & A3 & A4 & A5 & A6).
      rewrite E. cbn [tact]. destruct (fits (blen k) (blen (old ++ dl ++ cat))) eqn:F; [|exact I].
      destruct (append_ok _ _ _ _ _ cat dl moved A3) as (h' & q' & R1 & R2 & R3); [eapply loc_lt; rewrite A1, locs_app; apply in_or_app; right; left; reflexivity|exact F|].
      rewrite R1. cbn [fine]. eapply replace_step; eauto; rewrite E; reflexivity.
    Qed.
    Lemma free_step c k r s q parent child : y_pc y t = PFree c k r s q parent child -> fine y a L t (tact hash bucket_size ns moved (y_m y) (y_pc y t)).
    Proof.
      intros E. pose proof (i_thr _ _ _ _ _ _ G t) as T. rewrite E in T. cbn [TinyConcProofs.thread_ok] in T. destruct T as (P & old & l1 & l2 & A1 & A2 & A3 & A4 & A5 & A6).
      fold nb in A1, A2, P. destruct (prog1_facts _ _ _ _ _ _ _ _ P) as [W IK]. destruct (i_lin _ _ _ _ _ _ G) as [LO LK LN LD].
      rewrite E. cbn [tact]. destruct A3 as (sl & EC & _). unfold h_free. rewrite EC. cbn [fine].
      set (i := hash k nb) in *. set (h' := mkHeap (updc (cell (t_h (y_m y))) q None) (hnext (t_h (y_m y)))).
      destruct (LN i) as [NDk NDl]. rewrite A1 in NDl, NDk. rewrite locs_app in NDl. rewrite keys_app in NDk. cbn in NDl, NDk.
      apply NoDup_remove in NDl as [NDl NIl]. apply NoDup_remove in NDk as [NDk NIk].
      assert (IN : forall x, In x (locs l1) \/ In x (locs l2) -> In x (locs (L i))).
      { intros x X. rewrite A1, locs_app. apply in_or_app. cbn. tauto. }
      assert (IQ : In q (locs (L i))) by (rewrite A1, locs_app; apply in_or_app; cbn; auto).
      assert (FI : forall x, view hash nb (updL L i (l1 ++ l2)) x = if beqb k x then None else view hash nb L x).
      { apply view_upd; [reflexivity| |].
        - intros x NE. rewrite A1, !find_app. cbn. destruct (beqb_spec x k) as [X|_]; [congruence|]. reflexivity.
        - apply find_none. rewrite keys_app. exact NIk. }
      pose proof (prog1_done _ _ (updL L i (l1 ++ l2)) _ _ _ _ _ _ P FI) as PD.
      exists a, (updL L i (l1 ++ l2)). split; [auto|].
      apply bucket_step with (c := c); auto; cbn [set_h t_nb t_h t_b t_num h' cell hnext]; fold nb i; try reflexivity; try (rewrite E; cbn; auto; fail).
      - intros x Hx Nx. apply updc_other. intros ->. contradiction.
      - intros x X. rewrite locs_app in X. apply in_app_or in X. split; [eapply loc_lt, IN; tauto|left; apply IN; tauto].
      - intros x X. apply key_bucket. rewrite A1. rewrite keys_app in X |- *. cbn. apply in_app_or in X. apply in_or_app. cbn. tauto.
      - rewrite keys_app. exact NDk.
      - rewrite locs_app. exact NDl.
      - rewrite E. cbn [pendp]. rewrite A1, !app_length. cbn [length]. lia.
      - cbn [TinyConcProofs.thread_ok t_nb t_h t_b]. fold nb i. split; [exact PD|]. split; [exact W|]. split; [exact IK|]. rewrite updL_same.
        exists l1, l2, (Some q). split; [reflexivity|]. split; [|split; [|exact A5]].
        + eapply seg_frame; [|exact A2]. intros x X. cbn. apply updc_other. intros ->. apply NIl, in_or_app. auto.
        + eapply seg_frame; [|exact A4]. intros x X. cbn. apply updc_other. intros ->. apply NIl, in_or_app. auto.
    Qed.
    Lemma new_step c k r s top v : y_pc y t = PNew c k r s top v -> fine y a L t (tact hash bucket_size ns moved (y_m y) (y_pc y t)).
    Proof.
      intros E. pose proof (i_thr _ _ _ _ _ _ G t) as T. rewrite E in T. cbn [TinyConcProofs.thread_ok] in T. destruct T as (P & NI & ET & SG).
      fold nb in NI, ET, SG, P. destruct (prog1_facts _ _ _ _ _ _ _ _ P) as [W IK]. destruct (i_lin _ _ _ _ _ _ G) as [LO LK LN LD].
      rewrite E. cbn [tact]. destruct (fits (blen k) (blen v)) eqn:F; [|exact I]. unfold tr_serialize. rewrite F. cbn [h_alloc fine].
      set (i := hash k nb) in *. set (q := hnext (t_h (y_m y))). set (l' := (q, (k, v)) :: L i).
      assert (FI : forall x, view hash nb (updL L i l') x = if beqb k x then Some v else view hash nb L x).
      { apply view_upd; [reflexivity| |].
        - intros x NE. cbn. destruct (beqb_spec x k) as [X|_]; [congruence|]. reflexivity.
        - cbn. rewrite beqb_refl. reflexivity. }
      pose proof (prog1_done _ _ (updL L i l') _ _ _ _ _ _ P FI) as PD.
      exists a, (updL L i l'). split; [auto|].
      apply bucket_step with (c := c); auto; cbn [set_h t_nb t_h t_b t_num cell hnext]; fold nb i; try reflexivity; try (rewrite E; cbn; auto; fail).
      - intros x Hx Nx. apply updc_other. unfold q. lia.
      - unfold q. lia.
      - intros x X. unfold l' in X. cbn in X. destruct X as [X|X]; [subst x; unfold q; split; [lia|right; lia]|]. pose proof (loc_lt _ _ X). unfold q. split; [lia|auto].
      - intros x X. unfold l' in X. cbn in X. destruct X as [X|X]; [subst x; reflexivity|apply key_bucket, X].
      - cbn. constructor; [exact NI|apply LN].
      - cbn. constructor; [|apply LN]. intros X. apply loc_lt in X. unfold q in X. lia.
      - rewrite E. cbn [pendp]. unfold l'. cbn [length]. lia.
      - cbn [TinyConcProofs.thread_ok t_nb t_h t_b]. fold nb i. split; [exact PD|]. split; [exact W|]. split; [exact IK|]. rewrite updL_same.
        exists [], l', (t_b (y_m y) i). split; [reflexivity|]. split; [reflexivity|]. split; [|reflexivity].
        cbn. split; [reflexivity|]. exists top. split; [exists []; cbn; rewrite updc_same, app_nil_r; auto|]. rewrite ET.
        eapply seg_frame; [|exact SG]. intros x X. cbn. apply updc_other. apply loc_lt in X. lia.
    Qed.
    Lemma link_step c k r s parent np d : y_pc y t = PLink c k r s parent np d -> fine y a L t (tact hash bucket_size ns moved (y_m y) (y_pc y t)).
    Proof.
      intros E. pose proof (i_thr _ _ _ _ _ _ G t) as T. rewrite E in T. cbn [TinyConcProofs.thread_ok] in T. destruct T as (P & W & IK & l1 & l2 & e & A1 & A2 & A3 & A4).
      fold nb in A1, A2, P, IK. destruct (i_lin _ _ _ _ _ _ G) as [LO LK LN LD].
      rewrite E. cbn [tact]. fold nb. set (i := hash k nb) in *.
      destruct (LN i) as [NDk NDl]. assert (NDl' := NDl). rewrite A1, locs_app in NDl'.
      destruct (relink_ok (t_h (y_m y)) (t_b (y_m y)) i l1 np e A2 (nodup_left _ _ NDl')) as (h' & b' & R1 & R2 & R3 & R4 & R5).
      rewrite A4, R1. cbn [fine]. exists a, (updL L i (L i)). split; [auto|].
      assert (FI : forall x, view hash nb (updL L i (L i)) x = view hash nb L x).
      { intros x. unfold view, updL. destruct (N.eqb_spec (hash x nb) i) as [->|_]; reflexivity. }
      assert (SG : seg h' (b' i) (L i) None).
      { rewrite A1. apply seg_app. exists np. split; [exact R2|]. eapply seg_frame; [|exact A3]. intros x X. apply R4. intros Y. exact (nodup_disj _ _ x NDl' Y X). }
      apply bucket_step with (c := c); auto; cbn [t_nb t_h t_b t_num cell hnext]; fold nb i; try reflexivity; try (rewrite E; cbn; auto; fail).
      - destruct (d =? 0)%Z; reflexivity.
      - intros x Hx Nx. apply R4. intros X. apply Nx. rewrite A1, locs_app. apply in_or_app. auto.
      - rewrite R5. lia.
      - intros x X. rewrite R5. split; [eapply loc_lt; eauto|auto].
      - intros x X. apply key_bucket, X.
      - rewrite E. cbn [pendp]. destruct (Z.eqb_spec d 0); cbn [pendp]; lia.
      - destruct (d =? 0)%Z; cbn [TinyConcProofs.thread_ok t_nb]; fold nb; eapply prog_ext; eauto.
    Qed.
    Lemma num_step c r s d : y_pc y t = PNum c r s d -> fine y a L t (tact hash bucket_size ns moved (y_m y) (y_pc y t)).
    Proof.
      intros E. pose proof (i_thr _ _ _ _ _ _ G t) as T. rewrite E in T. cbn [TinyConcProofs.thread_ok] in T. fold nb in T.
      assert (B : inbody (y_pc y t) c) by (rewrite E; reflexivity).
      destruct (body_facts _ _ B) as (F1 & F2 & F3 & F4 & F5). assert (B' : inbody (PTop c r s) c) by reflexivity. destruct (body_facts _ _ B') as (F1' & F2' & F3' & F4' & F5').
      rewrite E. cbn [tact fine]. exists a, L. split; [auto|].
      eapply (local_step hash bucket_size hash_lt size_pos ns n y a L t); eauto; cbn [t_nb t_h t_b t_num].
      - apply (i_lin _ _ _ _ _ _ G).
      - intros i Hi A _ [X|X]; [auto|]. rewrite E in X. discriminate.
      - rewrite E. cbn [pendp]. lia.
      - eapply body_main; eauto. apply (i_excl _ _ _ _ _ _ G).
      - intros x A _ ND [X|X]; [|exact X]. exfalso. apply ND. apply F4'. apply F4 in X. exact X.
      - apply F5'. apply F5. apply (i_abs _ _ _ _ _ _ G).
    Qed.
    Lemma top_step c k it r s : y_pc y t = PTop c ((k, it) :: r) s -> fine y a L t (tact hash bucket_size ns moved (y_m y) (y_pc y t)).
    Proof.
      intros E. pose proof (i_thr _ _ _ _ _ _ G t) as T. rewrite E in T. cbn [TinyConcProofs.thread_ok] in T. fold nb in T.
      assert (B : inbody (y_pc y t) c) by (rewrite E; reflexivity).
      destruct (prog_next _ _ _ _ _ _ _ _ T) as (_ & _ & _ & _ & IK & _).
      rewrite E. cbn [tact fine]. fold nb. exists a, L. split; [auto|].
      eapply quiet; eauto; try reflexivity; try (rewrite E; reflexivity).
      cbn [TinyConcProofs.thread_ok]. fold nb. split; [exact T|]. exists [], (L (hash k nb)). split; [reflexivity|]. split; [reflexivity|]. split; [|auto].
      eapply seg_here with (t := t); eauto; rewrite E; [exact IK|reflexivity].
    Qed.
    (** The call takes effect. *)
    Lemma commit_step c s : y_pc y t = PTop c [] s -> fine y a L t (tact hash bucket_size ns moved (y_m y) (y_pc y t)).
    Proof.
      intros E. pose proof (i_thr _ _ _ _ _ _ G t) as T. rewrite E in T. cbn [TinyConcProofs.thread_ok] in T. fold nb in T.
      destruct T as (W & dn & D1 & D2 & D3). rewrite app_nil_r in D1. subst dn.
      assert (B : inbody (y_pc y t) c) by (rewrite E; reflexivity). destruct (body_facts _ _ B) as (F1 & F2 & F3 & F4 & F5).
      pose proof (proj1 (F5 _) (i_abs _ _ _ _ _ _ G t)) as AT.
      rewrite E. cbn [tact fine]. fold nb. set (m1 := fst (ref_items (a_m a) (ic_l c) (ic_w c) (ic_s c))) in *.
      exists (mkA m1 (aupd (a_th a) t (ADone (RS s)))), L. split.
      { right. apply (as_do S a t (CItems c)); [exact AT|]. rewrite D2. apply D_items. intros x. reflexivity. }
      assert (IR : forall j, In j (rev (cslots nb c)) <-> In j (cslots nb c)) by (intros; symmetry; apply in_rev).
      eapply (local_step hash bucket_size hash_lt size_pos ns n y a L t); eauto; cbn [a_m a_th].
      - apply (i_lin _ _ _ _ _ _ G).
      - intros i Hi A _ [X|X]; [auto|]. rewrite E in X. discriminate.
      - rewrite E. cbn [pendp]. lia.
      - apply excl_sub; [apply (i_excl _ _ _ _ _ _ G)|rewrite E; cbn; auto|]. intros j. rewrite F1, F2. cbn. rewrite IR. auto.
      - exact I.
      - intros x. rewrite F1, F2. fold nb. destruct (ic_w c) eqn:EW.
        + destruct (in_dec N.eq_dec (slot nb x) (cslots nb c)) as [X|X]; [auto|]. right. apply ref_items_other. intros k it I ->. apply X. apply in_cslots. eauto.
        + right. unfold m1. rewrite ref_items_ro; [reflexivity|]. destruct W as [W|W]; [congruence|exact W].
      - intros x A _ _ _. fold nb in A |- *. apply D3. rewrite F1 in A. exact A.
      - cbn. apply aupd_same.
      - intros u NE. apply aupd_other, NE.
    Qed.
    Lemma begin_step c got : y_pc y t = PSlots c got [] -> fine y a L t (tact hash bucket_size ns moved (y_m y) (y_pc y t)).
    Proof.
      intros E. pose proof (i_thr _ _ _ _ _ _ G t) as T. rewrite E in T. cbn [TinyConcProofs.thread_ok] in T. fold nb in T. destruct T as [W T]. rewrite app_nil_r in T. subst got.
      rewrite E. cbn [tact fine]. exists a, L. split; [auto|].
      assert (EX : forall u x, u <> t -> In (slot nb x) (cslots nb c) -> ~ dirty nb (y_pc y u) x).
      { intros u x NE A D. apply dirty_slots in D. destruct D as [D M]. destruct (i_excl _ _ _ _ _ _ G t u ltac:(congruence)) as [_ X]. fold nb in X. rewrite E in X. cbn in X.
        apply (X _ A D). right. exact M. }
      assert (VV : forall x, In (slot nb x) (cslots nb c) -> view hash nb L x = a_m a x).
      { intros x A. apply (i_free _ _ _ _ _ _ G). intros u. destruct (Nat.eq_dec u t) as [->|NE]; [rewrite E; cbn; auto|]. apply EX; auto. }
      eapply (local_step hash bucket_size hash_lt size_pos ns n y a L t); eauto.
      - apply (i_lin _ _ _ _ _ _ G).
      - intros i Hi A _ [X|X]; [auto|]. rewrite E in X. discriminate.
      - rewrite E. cbn [pendp]. lia.
      - apply excl_sub; [apply (i_excl _ _ _ _ _ _ G)|rewrite E; cbn; auto|]. intros j. rewrite E. cbn. auto.
      - cbn. fold nb. split; [exact W|]. exists []. split; [reflexivity|]. split; [reflexivity|]. intros x A. apply VV, A.
      - intros x A _ _ _. apply VV. rewrite E in A. exact A.
      - pose proof (i_abs _ _ _ _ _ _ G t) as X. rewrite E in X. exact X.
    Qed.
    Lemma un_step c s l : y_pc y t = PUn c s l -> fine y a L t (tact hash bucket_size ns moved (y_m y) (y_pc y t)).
    Proof.
      intros E. pose proof (i_abs _ _ _ _ _ _ G t) as AB. rewrite E in AB. cbn in AB.
      assert (Q : forall p', (forall md, main_of p' = Some md -> md = MS) -> (forall j, In j (slots_of nb p') -> In j l /\ mode_of p' = (if ic_w c then MX else MS)) ->
         pendp p' = 0%Z -> (forall x, ~ dirty nb p' x) -> thread_ok (y_m y) L (a_m a) p' -> matches p' (a_th a t) ->
         exists a' L', (a' = a \/ astep a ETau a') /\ ginv (mkSys (y_m y) (upd (y_pc y) t p')) a' L').
      { intros p' M SL PE ND TH MA. exists a, L. split; [auto|]. eapply (local_step hash bucket_size hash_lt size_pos ns n y a L t); eauto.
        - apply (i_lin _ _ _ _ _ _ G).
        - intros i Hi A _ [X|X]; [auto|]. rewrite E in X. discriminate.
        - rewrite E, PE. cbn [pendp]. lia.
        - apply excl_sub; [apply (i_excl _ _ _ _ _ _ G)| |]; rewrite E; cbn.
          + intros md X. rewrite (M md X). reflexivity.
          + intros j X. destruct (SL j X). auto.
        - intros x _ _ _ [X|X]; [rewrite E in X; destruct X|exact X]. }
      rewrite E. destruct l as [|j l]; cbn [tact fine]; apply Q; cbn; try easy; try congruence.
      intros j'. auto.
    Qed.
    Lemma count_step : y_pc y t = PCount -> fine y a L t (tact hash bucket_size ns moved (y_m y) (y_pc y t)).
    Proof.
      intros E. pose proof (i_abs _ _ _ _ _ _ G t) as AB. rewrite E in AB. cbn in AB.
      rewrite E. cbn [tact fine]. exists (mkA (a_m a) (aupd (a_th a) t (ADone (RN (t_num (y_m y)))))), L. split.
      { right. eapply as_do; [exact AB|constructor]. }
      eapply (local_step hash bucket_size hash_lt size_pos ns n y a L t); eauto; cbn [a_m a_th].
      - apply (i_lin _ _ _ _ _ _ G).
      - intros i Hi A _ [X|X]; [auto|]. rewrite E in X. discriminate.
      - rewrite E. cbn [pendp]. lia.
      - apply excl_sub; [apply (i_excl _ _ _ _ _ _ G)| |]; cbn; easy.
      - exact I.
      - intros x _ _ _ [X|X]; [rewrite E in X; destruct X|exact X].
      - cbn. apply aupd_same.
      - intros u NE. apply aupd_other, NE.
    Qed.
    (** mutex_ is held exclusively: the memory is that of one thread. *)
    Lemma excl_step o s : y_pc y t = PExcl o s -> fine y a L t (tact hash bucket_size ns moved (y_m y) (y_pc y t)).
    Proof.
      intros E. pose proof (i_abs _ _ _ _ _ _ G t) as AB. rewrite E in AB. cbn in AB.
      pose proof (i_thr _ _ _ _ _ _ G t) as T. rewrite E in T. cbn [TinyConcProofs.thread_ok wf_call] in T.
      assert (OUT : forall u, u <> t -> main_of (y_pc y u) = None).
      { intros u NE. destruct (main_of (y_pc y u)) as [b|] eqn:EM; [|reflexivity]. exfalso.
        destruct (i_excl _ _ _ _ _ _ G t u ltac:(congruence)) as [X _]. rewrite E in X. apply (X MX b eq_refl EM). left. reflexivity. }
      assert (QU : forall p : pc S, main_of p = None -> pendp p = 0%Z /\ (forall nb, linking nb p = None) /\ (forall nb x, ~ dirty nb p x) /\
         (forall nb, slots_of nb p = []) /\ (forall m L C m' L' C', thread_ok m L C p -> thread_ok m' L' C' p)).
      { intros p; destruct p; cbn; try easy; intros _; repeat split; auto; easy. }
      assert (NP : pend (y_pc y) n = 0%Z).
      { assert (forall k, pend (y_pc y) k = 0%Z) as X; [|apply X]. induction k as [|k IHk]; [reflexivity|]. cbn. rewrite IHk.
        destruct (Nat.eq_dec k t) as [->|NE]; [rewrite E; reflexivity|]. destruct (QU _ (OUT k NE)) as [-> _]. reflexivity. }
      assert (TI : tinv hash (y_m y) L).
      { destruct (i_lin _ _ _ _ _ _ G) as [LO LK LN LD]. constructor; auto.
        - intros i Hi. destruct (i_shape _ _ _ _ _ _ G i Hi) as [X|(u & X)]; [exact X|]. destruct (Nat.eq_dec u t) as [->|NE]; [rewrite E in X; discriminate|].
          destruct (QU _ (OUT u NE)) as (_ & Y & _). rewrite Y in X. discriminate.
        - rewrite (i_num _ _ _ _ _ _ G), NP. lia. }
      assert (SM : same_map (a_m a) (view hash nb L)).
      { intros x. symmetry. apply (i_free _ _ _ _ _ _ G). intros u. destruct (Nat.eq_dec u t) as [->|NE]; [rewrite E; cbn; auto|]. apply (QU _ (OUT u NE)). }
      assert (SMALL : small (a_m a) s o).
      { apply T. intros k v EK. rewrite SM in EK. unfold view in EK. apply find_some in EK; [|apply (l_nodup _ _ _ _ (i_lin _ _ _ _ _ _ G))]. destruct EK as (q & EK).
        pose proof (v_seg _ _ _ TI (hash k nb) (hash_lt k _ H0)) as SG. apply in_split in EK. destruct EK as (l1 & l2 & EK). rewrite EK in SG. apply seg_app in SG.
        destruct SG as (m & _ & SG). cbn in SG. destruct SG as (_ & ch & (sl & _ & F) & _). exact F. }
      destruct (call_ok hash bucket_size hash_lt size_pos (y_m y) (a_m a) s o moved) as (m' & s' & C' & A1 & (L' & B1 & B2 & B3) & A3); [exists L; auto|exact SMALL|].
      rewrite E. cbn [tact]. rewrite A1. cbn [fine].
      exists (mkA C' (aupd (a_th a) t (ADone (RS s')))), L'. split; [right; eapply as_do; [exact AB|constructor; exact A3]|].
      assert (OUT' : forall u, main_of (upd (y_pc y) t (PRet (RS s')) u) = None).
      { intros u. destruct (Nat.eq_dec u t) as [->|NE]; [rewrite upd_same; reflexivity|rewrite upd_other by exact NE; auto]. }
      destruct B2 as [V1 V2 V3 V4 V5 V6].
      constructor; cbn [y_m y_pc a_m a_th]; auto.
      - intros u Hu. rewrite upd_other by lia. apply (i_fin _ _ _ _ _ _ G), Hu.
      - constructor; auto.
      - rewrite (pend_upd hash bucket_size hash_lt size_pos ns) by exact Ht. rewrite NP, E, V6. cbn [pendp]. lia.
      - intros u v NE. split; [intros x b X; rewrite OUT' in X; discriminate|]. intros j X. destruct (QU _ (OUT' u)) as (_ & _ & _ & Y & _). rewrite Y in X. destruct X.
      - intros u. destruct (Nat.eq_dec u t) as [->|NE]; [rewrite upd_same; exact I|]. rewrite upd_other by exact NE.
        destruct (QU _ (OUT u NE)) as (_ & _ & _ & _ & Y). eapply Y. apply (i_thr _ _ _ _ _ _ G).
      - intros u. destruct (Nat.eq_dec u t) as [->|NE]; [rewrite upd_same, aupd_same; reflexivity|]. rewrite upd_other, aupd_other by exact NE. apply (i_abs _ _ _ _ _ _ G).
    Qed.
  End One.

  Lemma act_ok (y : sys S) a L t moved : ginv y a L -> fine y a L t (tact hash bucket_size ns moved (y_m y) (y_pc y t)).
  Proof.
    intros G. destruct (Nat.lt_ge_cases t n) as [Ht|Ht]; [|rewrite (i_fin _ _ _ _ _ _ G t Ht); exact I].
    pose proof (i_thr _ _ _ _ _ _ G t) as T.
    destruct (y_pc y t) as [|c|c got [|j todo]|c [|[k it] r] s| | | | | | | | | | | | | | |] eqn:E; rewrite <- E in *.
    all: try (rewrite E; exact I).
    all: try (rewrite E in T; cbn in T; destruct T; fail).
    - eapply begin_step; eauto.
    - eapply commit_step; eauto.
    - eapply top_step; eauto.
    - eapply walk_step; eauto.
    - eapply free_step; eauto.
    - eapply res_step; eauto.
    - eapply app_step; eauto.
    - eapply new_step; eauto.
    - eapply link_step; eauto.
    - eapply num_step; eauto.
    - eapply un_step; eauto.
    - eapply excl_step; eauto.
    - eapply count_step; eauto.
  Qed.
End Steps.
