(** Lemmas on the iterator of ShardDBM: the slots always hold, for each shard, its nearest record from the current key on. *)
From Coq Require Import List NArith Bool Arith Lia Permutation Sorting.Sorted.
Import ListNotations.
From Verif Require Import Bytes BytesOrder DbmModel StatusModel OmapSpec OmapHist OmapFacts ShardModel ShardSpec ShardProofs.
Local Open Scope nat_scope.

Section Iter.
  Variable cmp : bytes -> bytes -> comparison.
  Hypothesis cmp_opp : forall a b, cmp b a = CompOpp (cmp a b).
  Hypothesis cmp_le_trans : forall a b c, cmp a b <> Gt -> cmp b c <> Gt -> cmp a c <> Gt.
  Hypothesis cmp_eq : forall a b, cmp a b = Eq -> a = b.
  Notation rec := (bytes * bytes)%type.
  (** The order in the direction of the iterator. *)
  Definition ordb (asc : bool) (a b : bytes) : comparison := if asc then cmp a b else cmp b a.
  Lemma ord_opp asc a b : ordb asc b a = CompOpp (ordb asc a b).
  Proof. destruct asc; cbn; apply cmp_opp. Qed.
  Lemma ord_trans asc a b c : ordb asc a b <> Gt -> ordb asc b c <> Gt -> ordb asc a c <> Gt.
  Proof. destruct asc; cbn; intros H1 H2; eapply cmp_le_trans; eauto. Qed.
  Lemma ord_same asc a : ordb asc a a = Eq.
  Proof. destruct asc; cbn; now apply cmp_same. Qed.
  Lemma ord_eq asc a b : ordb asc a b = Eq -> a = b.
  Proof. destruct asc; cbn; intros H; apply cmp_eq in H; auto. Qed.
  Lemma ord_gt asc a b : ordb asc a b = Gt <-> ordb asc b a = Lt.
  Proof. rewrite (ord_opp asc a b). destruct (ordb asc a b); cbn; split; congruence. Qed.
  Lemma ord_lt_trans asc a b c : ordb asc a b = Lt -> ordb asc b c <> Gt -> ordb asc a c = Lt.
  Proof.
    intros H1 H2. assert (N : ordb asc a c <> Gt) by (eapply ord_trans; eauto; congruence). destruct (ordb asc a c) eqn:E; try congruence. apply ord_eq in E. subst c. exfalso. apply H2. now apply ord_gt.
  Qed.
  Definition dl (asc : bool) (L : omap) : omap := if asc then L else rev L.
  Definition scan (asc : bool) (f : rec -> bool) (L : omap) : option rec := find f (dl asc L).
  Lemma in_dl asc L r : In r (dl asc L) <-> In r L.
  Proof. destruct asc; cbn; [tauto|]. symmetry. apply in_rev. Qed.
  Lemma dl_sorted asc L : ascending cmp L -> StronglySorted (fun a b : rec => ordb asc (fst a) (fst b) = Lt) (dl asc L).
  Proof.
    intros H. destruct asc; cbn; [exact H|]. induction H as [|a L Hs IH Hf]; cbn; [constructor|].
    assert (G : forall l x, StronglySorted (fun a b : rec => cmp (fst b) (fst a) = Lt) l -> Forall (fun r : rec => cmp (fst x) (fst r) = Lt) l -> StronglySorted (fun a b : rec => cmp (fst b) (fst a) = Lt) (l ++ [x])).
    { clear. intros l x Hs. induction Hs as [|a l Hs IH Hf]; cbn; intros F; [repeat constructor|]. inversion F; subst. constructor; auto. apply Forall_app. split; auto. }
    apply G; auto. apply Forall_rev. exact Hf.
  Qed.
  Lemma find_spec (lt : rec -> rec -> Prop) f l r : StronglySorted lt l -> find f l = Some r -> In r l /\ f r = true /\ forall r', In r' l -> f r' = true -> r' = r \/ lt r r'.
  Proof.
    intros Hs. induction Hs as [|a l Hs IH Hf]; cbn; intros H; [discriminate|]. destruct (f a) eqn:E.
    - inversion H; subst. split; auto. split; auto. intros r' [->|Hi] _; auto. right. rewrite Forall_forall in Hf. auto.
    - destruct (IH H) as (I1 & I2 & I3). split; auto. split; auto. intros r' [<-|Hi] F; [congruence|auto].
  Qed.
  Lemma scan_some asc f L r : ascending cmp L -> scan asc f L = Some r -> In r L /\ f r = true /\ forall r', In r' L -> f r' = true -> r' = r \/ ordb asc (fst r) (fst r') = Lt.
  Proof.
    intros A H. destruct (find_spec _ _ _ _ (dl_sorted asc L A) H) as (I1 & I2 & I3). rewrite in_dl in I1. split; auto. split; auto. intros r' Hi. apply I3. now rewrite in_dl.
  Qed.
  Lemma scan_none asc f L : scan asc f L = None -> forall r, In r L -> f r = false.
  Proof. intros H r Hi. eapply find_none in H; eauto. now rewrite in_dl. Qed.
  (** What is found depends only on which records there are to be found. *)
  Lemma scan_ext asc f f' L L' : ascending cmp L -> ascending cmp L' -> (forall r, In r L /\ f r = true <-> In r L' /\ f' r = true) -> scan asc f L = scan asc f' L'.
  Proof.
    intros A A' E. destruct (scan asc f L) as [r|] eqn:S1, (scan asc f' L') as [r'|] eqn:S2; auto.
    - destruct (scan_some _ _ _ _ A S1) as (I1 & I2 & I3), (scan_some _ _ _ _ A' S2) as (J1 & J2 & J3).
      destruct (proj1 (E r) (conj I1 I2)) as [X1 X2], (proj2 (E r') (conj J1 J2)) as [Y1 Y2].
      destruct (I3 _ Y1 Y2) as [->|L1]; auto. destruct (J3 _ X1 X2) as [->|L2]; auto. exfalso. rewrite ord_opp, L1 in L2. discriminate.
    - destruct (scan_some _ _ _ _ A S1) as (I1 & I2 & _). destruct (proj1 (E r) (conj I1 I2)) as [X1 X2]. rewrite (scan_none _ _ _ S2 _ X1) in X2. discriminate.
    - destruct (scan_some _ _ _ _ A' S2) as (I1 & I2 & _). destruct (proj2 (E r') (conj I1 I2)) as [X1 X2]. rewrite (scan_none _ _ _ S1 _ X1) in X2. discriminate.
  Qed.
  (** Records by key *)
  Lemma find_in : forall L k k1 v, o_find cmp k L = Some (k1, v) -> In (k1, v) L.
  Proof. induction L as [|[k0 v0] L IH]; cbn; intros k k1 v H; [discriminate|]. destruct (cmp k k0); eauto. inversion H; auto. Qed.
  Lemma in_find L k v : ascending cmp L -> In (k, v) L -> o_find cmp k L = Some (k, v).
  Proof. intros A H. apply in_split in H. destruct H as (L1 & L2 & ->). now apply find_mid. Qed.
  Lemma in_ge L k v : ascending cmp L -> In (k, v) L -> o_ge cmp k L = Some (k, v).
  Proof. intros A H. apply in_split in H. destruct H as (L1 & L2 & ->). now apply ge_mid. Qed.
  Lemma in_view L k v : ascending cmp L -> In (k, v) L <-> o_view cmp L k = Some v.
  Proof.
    intros A. unfold o_view. split; intros H; [now rewrite (in_find _ _ _ A H)|]. destruct (o_find cmp k L) as [[k1 v1]|] eqn:E; [|discriminate]. cbn in H. inversion H; subst. pose proof (find_key cmp cmp_eq _ _ _ _ E). subst k1. now apply find_in in E.
  Qed.
  Lemma in_unique L k v v' : ascending cmp L -> In (k, v) L -> In (k, v') L -> v = v'.
  Proof. intros A H1 H2. apply in_view in H1, H2; auto. congruence. Qed.
  Lemma in_put L x v r : ascending cmp L -> In r (o_put cmp x v L) <-> r = (x, v) \/ In r L /\ fst r <> x.
  Proof.
    intros A. destruct r as [k v']. rewrite in_view by now apply put_asc. rewrite view_put by auto. rewrite eqk_beqb by auto. cbn. destruct (beqb_spec x k) as [->|N].
    - split; [intros H; inversion H; auto|intros [H|[_ H]]; [inversion H; auto|congruence]].
    - rewrite <- in_view by exact A. split; [intros H; right; split; auto|intros [H|[H _]]; [inversion H; congruence|auto]].
  Qed.
  Lemma in_del L x r : ascending cmp L -> In r (o_del cmp x L) <-> In r L /\ fst r <> x.
  Proof.
    intros A. destruct r as [k v']. rewrite in_view by now apply del_asc. rewrite view_del by auto. rewrite eqk_beqb by auto. cbn. destruct (beqb_spec x k) as [->|N].
    - split; [discriminate|intros [_ H]; congruence].
    - rewrite <- in_view by exact A. split; [intros H; split; auto|tauto].
  Qed.

  (** * Filters *)
  Definition upclosed (asc : bool) (f : rec -> bool) : Prop := forall r r', f r = true -> ordb asc (fst r) (fst r') <> Gt -> f r' = true.
  Definition from (asc : bool) (x : bytes) (r : rec) : bool := match ordb asc x (fst r) with Gt => false | _ => true end.
  Definition beyond (asc : bool) (x : bytes) (r : rec) : bool := match ordb asc x (fst r) with Lt => true | _ => false end.
  Lemma from_spec asc x r : from asc x r = true <-> ordb asc x (fst r) <> Gt.
  Proof. unfold from. destruct (ordb asc x (fst r)); split; congruence. Qed.
  Lemma beyond_spec asc x r : beyond asc x r = true <-> ordb asc x (fst r) = Lt.
  Proof. unfold beyond. destruct (ordb asc x (fst r)); split; congruence. Qed.
  Lemma from_up asc x : upclosed asc (from asc x).
  Proof. intros r r'. rewrite !from_spec. intros. eapply ord_trans; eauto. Qed.
  Lemma beyond_up asc x : upclosed asc (beyond asc x).
  Proof. intros r r'. rewrite !beyond_spec. intros. eapply ord_lt_trans; eauto. Qed.
  Lemma find_ext : forall (f g : rec -> bool) l, (forall r, f r = g r) -> find f l = find g l.
  Proof. intros f g l E. induction l as [|a l IH]; cbn; auto. rewrite E, IH. reflexivity. Qed.
  Lemma ge_scan x L : o_ge cmp x L = scan true (from true x) L.
  Proof. unfold scan, o_ge, dl. apply find_ext. intros r. unfold from, less. cbn. rewrite (cmp_opp x (fst r)). destruct (cmp x (fst r)); reflexivity. Qed.
  Lemma gt_scan x L : o_gt cmp x L = scan true (beyond true x) L.
  Proof. unfold scan, o_gt, dl. apply find_ext. intros r. unfold beyond, less. cbn. destruct (cmp x (fst r)); reflexivity. Qed.
  Lemma le_scan x L : o_le cmp x L = scan false (from false x) L.
  Proof. unfold scan, o_le, dl. apply find_ext. intros r. unfold from, less. cbn. rewrite (cmp_opp x (fst r)). destruct (cmp x (fst r)); reflexivity. Qed.
  Lemma lt_scan x L : o_lt cmp x L = scan false (beyond false x) L.
  Proof. unfold scan, o_lt, dl. apply find_ext. intros r. unfold beyond, less. cbn. destruct (cmp (fst r) x); reflexivity. Qed.
  Lemma hd_scan asc L : hd_error (dl asc L) = scan asc (fun _ => true) L.
  Proof. unfold scan. destruct (dl asc L); reflexivity. Qed.
  Definition mdir (m : smove) : bool := match m with MLast | MLower _ _ => false | _ => true end.
  Definition mf (m : smove) : rec -> bool :=
    match m with
    | MFirst | MLast => fun _ => true
    | MJump k => from true k
    | MLower k b => if b then from false k else beyond false k
    | MUpper k b => if b then from true k else beyond true k
    end.
  Lemma mf_up m : upclosed (mdir m) (mf m).
  Proof. destruct m as [| |k|k []|k []]; cbn; try apply from_up; try apply beyond_up; intros r r' _ _; reflexivity. Qed.
  (** Retrieval through the iterator of a shard. *)
  Lemma get_step o cd o' kv : ascending cmp (o_recs o) -> ostep cmp _ (KItProcess 0 get_kv false) o ([], []) cd o' kv ->
    o_recs o' = o_recs o /\
    match match o_pos o 0 with Some k => o_ge cmp k (o_recs o) | None => None end with
    | Some r => cd = SUCCESS /\ kv = r /\ o_pos o' 0 = Some (fst r)
    | None => cd = NOT_FOUND_ERROR
    end.
  Proof.
    intros A W. cbn [ostep] in W. destruct (o_pos o 0) as [k|]; [|tauto]. destruct W as [M W]. destruct (o_ge cmp k (o_recs o)) as [[k1 v1]|] eqn:E; [|tauto]. destruct W as (W1 & W2 & W3).
    assert (I0 : In (k1, v1) (o_recs o)). { rewrite ge_scan in E. apply scan_some in E; tauto. } unfold o_process, o_call in W2, W3. rewrite (in_find _ _ _ A I0) in W2, W3. cbn in W2, W3. split; auto. split; auto. split; auto. rewrite (M 0). reflexivity.
  Qed.
  Lemma self_ge asc f L : ascending cmp L -> match at_key (scan asc f L) with Some k => o_ge cmp k L | None => None end = scan asc f L.
  Proof. intros A. destruct (scan asc f L) as [[k v]|] eqn:E; cbn; auto. apply in_ge; auto. apply scan_some in E; tauto. Qed.
  Lemma move_step m o cd o1 x : ascending cmp (o_recs o) -> ostep cmp _ (mcall m) o ([], []) cd o1 x -> cd = SUCCESS /\ o_recs o1 = o_recs o /\
    match o_pos o1 0 with Some k => o_ge cmp k (o_recs o1) | None => None end = scan (mdir m) (mf m) (o_recs o).
  Proof.
    intros A W. destruct m as [| |k|k b|k b]; cbn [mcall ostep] in W; destruct W as (-> & E & _ & M); split; auto; split; auto; specialize (M 0); cbn in M; rewrite M, E; cbn [mdir mf].
    - rewrite <- (hd_scan true). cbn [dl]. rewrite (hd_scan true (o_recs o) : hd_error (o_recs o) = _). now apply self_ge.
    - unfold o_last. rewrite (hd_scan false (o_recs o) : hd_error (rev (o_recs o)) = _). now apply self_ge.
    - apply ge_scan.
    - destruct b; [rewrite le_scan|rewrite lt_scan]; now apply self_ge.
    - destruct b; [rewrite ge_scan|rewrite gt_scan]; now apply self_ge.
  Qed.

  (** * Heaps of slots *)
  Lemma slot_key_nth sl i r : nth_error sl i = Some r -> slot_key sl i = fst r.
  Proof. intros H. unfold slot_key. now rewrite (nth_error_nth _ _ _ H). Qed.
  Lemma slot_lt_ord asc sl a b : slot_lt cmp asc sl a b <-> ordb asc (slot_key sl a) (slot_key sl b) = Gt.
  Proof. unfold slot_lt, ordb. destruct asc; [tauto|]. rewrite (cmp_opp (slot_key sl a) (slot_key sl b)). destruct (cmp (slot_key sl a) (slot_key sl b)); cbn; split; congruence. Qed.
  Lemma heap_front asc sl hp f : heaped cmp asc sl hp -> hd_error hp = Some f -> forall i y, nth_error hp i = Some y -> ordb asc (slot_key sl f) (slot_key sl y) <> Gt.
  Proof.
    intros H F i. induction i as [i IH] using lt_wf_ind. intros y Hy. destruct i as [|i].
    - destruct hp; cbn in *; [discriminate|]. inversion F; inversion Hy; subst. rewrite ord_same. discriminate.
    - assert (B : (S i - 1) / 2 < S i) by (apply Nat.div_lt_upper_bound; lia).
      assert (exists p, nth_error hp ((S i - 1) / 2) = Some p) as [p Hp]. { destruct (nth_error hp ((S i - 1) / 2)) eqn:E; eauto. apply nth_error_None in E. assert (S i < length hp) by (apply nth_error_Some; congruence). lia. }
      pose proof (H (S i) y p ltac:(lia) Hy Hp) as N. rewrite slot_lt_ord in N. eapply ord_trans; [apply (IH _ B _ Hp)|exact N].
  Qed.
  Lemma heaped_keys asc sl sl' hp : (forall j, In j hp -> slot_key sl j = slot_key sl' j) -> heaped cmp asc sl hp -> heaped cmp asc sl' hp.
  Proof.
    intros E H i x p Hi Hx Hp. rewrite slot_lt_ord. rewrite <- !E by (eapply nth_error_In; eauto). rewrite <- slot_lt_ord. eapply H; eauto.
  Qed.
  Lemma key_set_other sl i r j : i <> j -> slot_key (set_nth sl i r) j = slot_key sl j.
  Proof.
    intros N. unfold slot_key. destruct (nth_error sl j) as [x|] eqn:E.
    - rewrite (nth_error_nth _ _ _ E). assert (E' : nth_error (set_nth sl i r) j = Some x) by now rewrite set_nth_other. now rewrite (nth_error_nth _ _ _ E').
    - assert (E' : nth_error (set_nth sl i r) j = None) by now rewrite set_nth_other. apply nth_error_None in E, E'. now rewrite !nth_overflow.
  Qed.

  (** * The slots and the heap stand for the nearest records of the shards in [P] that pass [f] *)
  Definition stands (asc : bool) (f : rec -> bool) (P : nat -> Prop) (stale : option nat) (dbs : list ost) (sl : list rec) (hp : list nat) : Prop :=
    length sl = length dbs /\ NoDup hp /\ (forall j, In j hp -> P j) /\ heaped cmp asc sl hp /\
    forall j o, P j -> nth_error dbs j = Some o ->
      match scan asc f (o_recs o) with
      | Some r => In j hp /\ (exists v, nth_error sl j = Some (fst r, v) /\ (stale <> Some j -> v = snd r)) /\ o_pos o 0 = Some (fst r)
      | None => ~ In j hp
      end.
  Lemma add_none asc f (P : nat -> Prop) dbs sl hp i o' : stands asc f P None dbs sl hp -> ~ P i -> scan asc f (o_recs o') = None -> i < length dbs ->
    stands asc f (fun j => P j \/ j = i) None (set_nth dbs i o') sl hp.
  Proof.
    intros (S1 & S2 & S3 & S4 & S5) NP E B. split; [now rewrite set_nth_length|]. split; auto. split; auto. split; auto. intros j o Pj Hj. destruct (Nat.eq_dec i j) as [<-|N].
    - rewrite set_nth_same in Hj by exact B. inversion Hj; subst o. rewrite E. intros Hi. apply NP, S3, Hi.
    - rewrite set_nth_other in Hj by exact N. destruct Pj as [Pj|Pj]; [|congruence]. apply S5; auto.
  Qed.
  Lemma still_heap asc f P dbs sl hp i r : stands asc f P None dbs sl hp -> ~ P i -> heaped cmp asc (set_nth sl i r) hp.
  Proof. intros (S1 & S2 & S3 & S4 & S5) NP. eapply heaped_keys; [|exact S4]. intros j Hj. symmetry. apply key_set_other. intros ->. apply NP. auto. Qed.
  Lemma add_push asc f (P : nat -> Prop) dbs sl hp i o' r hp' : stands asc f P None dbs sl hp -> ~ P i -> scan asc f (o_recs o') = Some r -> o_pos o' 0 = Some (fst r) -> i < length dbs ->
    pushed cmp asc (set_nth sl i r) hp i (Some hp') -> stands asc f (fun j => P j \/ j = i) None (set_nth dbs i o') (set_nth sl i r) hp'.
  Proof.
    intros (S1 & S2 & S3 & S4 & S5) NP E Po B (_ & Pm & Hh). split; [now rewrite !set_nth_length|]. split; [|split; [|split; [exact Hh|]]].
    - eapply Permutation_NoDup; [exact Pm|]. constructor; auto.
    - intros j Hj. apply (Permutation_in j (Permutation_sym Pm)) in Hj. destruct Hj as [<-|Hj]; auto.
    - intros j o Pj Hj. destruct (Nat.eq_dec i j) as [<-|N].
      + rewrite set_nth_same in Hj by exact B. inversion Hj; subst o. rewrite E. split; [apply (Permutation_in i Pm); now left|]. split; auto. exists (snd r). split; auto. rewrite set_nth_same by lia. now destruct r.
      + rewrite set_nth_other in Hj by exact N. destruct Pj as [Pj|Pj]; [|congruence]. specialize (S5 j o Pj Hj). destruct (scan asc f (o_recs o)) as [r0|].
        * destruct S5 as (T1 & (v & T2 & T3) & T4). split; [apply (Permutation_in j Pm); now right|]. split; auto. exists v. split; auto. now rewrite set_nth_other.
        * intros Hi. apply (Permutation_in j (Permutation_sym Pm)) in Hi. destruct Hi; [congruence|auto].
  Qed.
  Lemma stands_same asc f f' (P Q : nat -> Prop) st dbs sl hp : (forall j, j < length dbs -> (P j <-> Q j)) -> (forall j, In j hp -> Q j) ->
    (forall j o, nth_error dbs j = Some o -> Q j -> scan asc f (o_recs o) = scan asc f' (o_recs o)) -> stands asc f P st dbs sl hp -> stands asc f' Q st dbs sl hp.
  Proof.
    intros E I0 F (S1 & S2 & S3 & S4 & S5). split; auto. split; auto. split; auto. split; auto. intros j o Qj Hj. rewrite <- (F j o Hj Qj). apply S5; auto. apply E; auto. apply nth_error_Some. congruence.
  Qed.

  (** * The shards together *)
  Variable h : bytes -> nat.
  Definition recs (dbs : list ost) : list omap := map o_recs dbs.
  (** Each shard is in order and has only keys of its own. *)
  Definition good (Ls : list omap) : Prop := forall j L, nth_error Ls j = Some L -> ascending cmp L /\ forall r, In r L -> h (fst r) = j.
  (** [G] is all the records of the shards, in order. *)
  Definition merged (Ls : list omap) (G : omap) : Prop := ascending cmp G /\ forall r, In r G <-> exists j L, nth_error Ls j = Some L /\ In r L.
  Lemma recs_nth dbs j o : nth_error dbs j = Some o -> nth_error (recs dbs) j = Some (o_recs o).
  Proof. apply map_nth_error. Qed.
  Lemma recs_inv dbs j L : nth_error (recs dbs) j = Some L -> exists o, nth_error dbs j = Some o /\ o_recs o = L.
  Proof. unfold recs. rewrite nth_error_map. destruct (nth_error dbs j) as [o|]; cbn; intros H; inversion H; eauto. Qed.
  Lemma recs_set dbs i o' : recs (set_nth dbs i o') = set_nth (recs dbs) i (o_recs o').
  Proof. unfold recs. revert i. induction dbs as [|d dbs IH]; intros [|i]; cbn; auto. now rewrite IH. Qed.
  Lemma set_nth_id A : forall (l : list A) i x, nth_error l i = Some x -> set_nth l i x = l.
  Proof. induction l as [|a l IH]; intros [|i] x H; cbn in *; try discriminate; [now inversion H|]. now rewrite IH. Qed.
  Definition within (dbs : list ost) (j : nat) : Prop := j < length dbs.
  (** The front of the heap is the nearest record of all. *)
  Lemma settle asc f dbs sl hp G : good (recs dbs) -> merged (recs dbs) G -> upclosed asc f -> stands asc f (within dbs) None dbs sl hp ->
    match scan asc f G with
    | None => hp = []
    | Some (x, v) => exists i, hd_error hp = Some i /\ nth_error sl i = Some (x, v) /\ stands asc (from asc x) (within dbs) None dbs sl hp
    end.
  Proof.
    intros Gd [MA MI] U St. pose proof St as (S1 & S2 & S3 & S4 & S5). destruct (scan asc f G) as [[x v]|] eqn:E.
    - destruct (scan_some _ _ _ _ MA E) as (I1 & I2 & I3). destruct (proj1 (MI _) I1) as (j & L & Hj & Ij). apply recs_inv in Hj. destruct Hj as (o & Hj & <-).
      assert (B : within dbs j) by (apply nth_error_Some; congruence). destruct (Gd _ _ (recs_nth _ _ _ Hj)) as [AL KL]. pose proof (S5 j o B Hj) as Q.
      (* the slot of the shard of x *)
      assert (Sx : scan asc f (o_recs o) = Some (x, v)).
      { destruct (scan asc f (o_recs o)) as [r|] eqn:Er; [|pose proof (scan_none _ _ _ Er _ Ij); congruence]. destruct (scan_some _ _ _ _ AL Er) as (J1 & J2 & J3).
        assert (IG : In r G) by (apply MI; exists j, (o_recs o); split; auto; now apply recs_nth). destruct (I3 _ IG J2) as [->|L1]; auto. destruct (J3 _ Ij I2) as [<-|L2]; auto. exfalso. cbn in *. rewrite ord_opp, L1 in L2. discriminate. }
      rewrite Sx in Q. destruct Q as (Q1 & (v' & Q2 & Q3) & Q4). cbn in Q2, Q3. rewrite Q3 in Q2 by discriminate. clear Q3 v'.
      destruct hp as [|i hp]; [destruct Q1|]. exists i. split; auto.
      assert (Wi : within dbs i) by (apply S3; now left). destruct (nth_error dbs i) as [oi|] eqn:Hi; [|apply nth_error_None in Hi; unfold within in Wi; lia].
      pose proof (S5 i oi Wi Hi) as Qi. destruct (scan asc f (o_recs oi)) as [ri|] eqn:Ei; [|exfalso; apply Qi; now left]. destruct Qi as (_ & (vi & T2 & T3) & T4). rewrite T3 in T2 by discriminate. clear T3 vi.
      assert (T5 : nth_error sl i = Some ri) by (rewrite T2; now destruct ri). clear T2. destruct (Gd _ _ (recs_nth _ _ _ Hi)) as [Ai Ki]. destruct (scan_some _ _ _ _ Ai Ei) as (J1 & J2 & J3).
      assert (IG : In ri G) by (apply MI; exists i, (o_recs oi); split; auto; now apply recs_nth).
      assert (Eq : ri = (x, v)). { destruct (I3 _ IG J2) as [->|L1]; auto. exfalso. apply In_nth_error in Q1. destruct Q1 as [m Hm]. pose proof (heap_front asc sl (i :: hp) i S4 eq_refl m j Hm) as N. rewrite (slot_key_nth _ _ _ T5), (slot_key_nth _ _ _ Q2) in N. apply N. apply ord_gt. exact L1. }
      subst ri. split; auto. apply (stands_same asc f _ (within dbs) (within dbs) None); auto; [tauto|]. intros j0 o0 H0 _. destruct (Gd _ _ (recs_nth _ _ _ H0)) as [A0 K0]. apply scan_ext; auto. intros r. rewrite from_spec. split; intros [R1 R2]; split; auto.
      + assert (IR : In r G) by (apply MI; exists j0, (o_recs o0); split; auto; now apply recs_nth). destruct (I3 _ IR R2) as [->|L1]; [cbn; rewrite ord_same|cbn in L1; rewrite L1]; discriminate.
      + apply (U (x, v)); auto.
    - destruct hp as [|i hp]; auto. exfalso. assert (Wi : within dbs i) by (apply S3; now left). destruct (nth_error dbs i) as [oi|] eqn:Hi; [|apply nth_error_None in Hi; unfold within in Wi; lia].
      pose proof (S5 i oi Wi Hi) as Qi. destruct (scan asc f (o_recs oi)) as [ri|] eqn:Ei; [|apply Qi; now left]. destruct (Gd _ _ (recs_nth _ _ _ Hi)) as [Ai Ki]. destruct (scan_some _ _ _ _ Ai Ei) as (J1 & J2 & _).
      assert (IG : In ri G) by (apply MI; exists i, (o_recs oi); split; auto; now apply recs_nth). rewrite (scan_none _ _ _ E _ IG) in J2. discriminate.
  Qed.

  (** * The loop of the moves *)
  Lemma fill_ok m alias : forall i t r t', fill cmp m (mdir m) alias i t r t' -> good (recs (t_dbs t)) -> i <= length (t_dbs t) ->
    stands (mdir m) (mf m) (fun j => j < i) None (t_dbs t) (t_slots t) (t_heap t) ->
    (forall a o, alias = Some a -> i <= a -> nth_error (t_dbs t) a = Some o -> exists rr, scan (mdir m) (mf m) (o_recs o) = Some rr /\ fst rr = slot_key (t_slots t) a) ->
    r = Some SUCCESS /\ recs (t_dbs t') = recs (t_dbs t) /\ stands (mdir m) (mf m) (within (t_dbs t')) None (t_dbs t') (t_slots t') (t_heap t').
  Proof.
    intros i t r t' F. induction F; intros Gd B St Al; cbn [t_dbs t_slots t_heap t_asc] in *.
    - subst i. split; auto.
    - exfalso. destruct (Gd _ _ (recs_nth _ _ _ H)) as [A _]. destruct (move_step _ _ _ _ _ A H0); congruence.
    - exfalso. destruct (Gd _ _ (recs_nth _ _ _ H)) as [A _]. destruct (move_step _ _ _ _ _ A H0); congruence.
    - exfalso. destruct (Gd _ _ (recs_nth _ _ _ H)) as [A _]. destruct (move_step _ _ _ _ _ A H0) as (_ & E1 & E2). rewrite <- E1 in A. destruct (get_step _ _ _ _ A H1) as [_ G1]. rewrite E2 in G1. destruct (scan (mdir m) (mf m) (o_recs o)); intuition congruence.
    - destruct (Gd _ _ (recs_nth _ _ _ H)) as [A _]. destruct (move_step _ _ _ _ _ A H0) as (_ & E1 & E2). rewrite <- E1 in A. destruct (get_step _ _ _ _ A H1) as [G0 G1]. rewrite E2 in G1.
      assert (L : i < length (t_dbs t)) by (apply nth_error_Some; congruence). destruct (scan (mdir m) (mf m) (o_recs o)) eqn:Sc; [destruct G1; discriminate|].
      assert (RS : recs (set_nth (t_dbs t) i o2) = recs (t_dbs t)) by (rewrite recs_set; apply set_nth_id; rewrite G0, E1; now apply recs_nth).
      destruct IHF as (I1 & I2 & I3).
      + now rewrite RS.
      + rewrite set_nth_length. lia.
      + assert (NP : ~ (fun j => j < i) i) by (cbn; lia). assert (Sc' : scan (mdir m) (mf m) (o_recs o2) = None) by now rewrite G0, E1. assert (Q := add_none _ _ _ _ _ _ i o2 St NP Sc' L). eapply (stands_same _ _ _ _ _ _ _ _ _) in Q; [exact Q| | |]; cbn; [intros j Hj; lia| |auto]. intros j Hj. destruct St as (_ & _ & S3 & _). specialize (S3 _ Hj). lia.
      + intros a oa Ea La Ha. rewrite set_nth_other in Ha by lia. apply (Al a oa); auto. lia.
      + split; auto. split; auto. congruence.
    - exfalso. destruct (Gd _ _ (recs_nth _ _ _ H)) as [A _]. destruct (move_step _ _ _ _ _ A H0) as (_ & E1 & E2). rewrite <- E1 in A. destruct (get_step _ _ _ _ A H1) as [G0 G1]. rewrite E2 in G1. destruct (Al i o H2 ltac:(lia) H) as (rr & Sc & Ek). rewrite Sc in G1. destruct G1 as (_ & -> & _). congruence.
    - exfalso. cbn in H2. apply H2. eapply still_heap; [exact St|cbn; lia].
    - destruct (Gd _ _ (recs_nth _ _ _ H)) as [A _]. destruct (move_step _ _ _ _ _ A H0) as (_ & E1 & E2). rewrite <- E1 in A. destruct (get_step _ _ _ _ A H1) as [G0 G1]. rewrite E2 in G1.
      assert (L : i < length (t_dbs t)) by (apply nth_error_Some; congruence). destruct (scan (mdir m) (mf m) (o_recs o)) as [rr|] eqn:Sc; [|discriminate]. destruct G1 as (_ & -> & G2).
      assert (RS : recs (set_nth (t_dbs t) i o2) = recs (t_dbs t)) by (rewrite recs_set; apply set_nth_id; rewrite G0, E1; now apply recs_nth).
      destruct IHF as (I1 & I2 & I3).
      + now rewrite RS.
      + rewrite set_nth_length. lia.
      + assert (NP : ~ (fun j => j < i) i) by (cbn; lia). assert (Sc' : scan (mdir m) (mf m) (o_recs o2) = Some rr) by now rewrite G0, E1. assert (Q := add_push _ _ _ _ _ _ i o2 rr hp' St NP Sc' G2 L H3). eapply (stands_same _ _ _ _ _ _ _ _ _) in Q; [exact Q| | |]; cbn; [intros j Hj; lia| |auto]. intros j Hj. destruct Q as (_ & _ & S3 & _). specialize (S3 _ Hj). lia.
      + intros a oa Ea La Ha. rewrite set_nth_other in Ha by lia. rewrite key_set_other by lia. apply (Al a oa); auto. lia.
      + split; auto. split; auto. congruence.
  Qed.

  (** * The invariant *)
  Definition inv (up : bool) (t : sit) (g : git) : Prop :=
    good (recs (t_dbs t)) /\ merged (recs (t_dbs t)) (g_recs g) /\ length (t_slots t) = length (t_dbs t) /\
    match g_cur g with
    | None => t_heap t = []
    | Some x => t_asc t = up /\ exists i v', hd_error (t_heap t) = Some i /\ nth_error (t_slots t) i = Some (x, v') /\
        stands up (from up x) (within (t_dbs t)) (if g_fresh g then None else Some i) (t_dbs t) (t_slots t) (t_heap t)
    end.
  Lemma good_upd Ls i L x L' (Q : rec -> Prop) : good Ls -> nth_error Ls i = Some L -> h x = i -> ascending cmp L' -> (forall r, Q r -> fst r = x) ->
    (forall r, In r L' <-> Q r \/ In r L /\ fst r <> x) -> good (set_nth Ls i L').
  Proof.
    intros Gd Hi Hx A' HQ E j L0 Hj. assert (B : i < length Ls) by (apply nth_error_Some; congruence). destruct (Nat.eq_dec i j) as [<-|N].
    - rewrite set_nth_same in Hj by exact B. inversion Hj; subst L0. split; auto. intros r Hr. apply E in Hr. destruct Hr as [Hr|[Hr _]]; [rewrite (HQ _ Hr); auto|]. apply (Gd _ _ Hi), Hr.
    - rewrite set_nth_other in Hj by exact N. apply (Gd _ _ Hj).
  Qed.
  Lemma merged_upd Ls G i L x L' G' (Q : rec -> Prop) : good Ls -> merged Ls G -> nth_error Ls i = Some L -> h x = i -> ascending cmp G' -> (forall r, Q r -> fst r = x) ->
    (forall r, In r L' <-> Q r \/ In r L /\ fst r <> x) -> (forall r, In r G' <-> Q r \/ In r G /\ fst r <> x) -> merged (set_nth Ls i L') G'.
  Proof.
    intros Gd [MA MI] Hi Hx A' HQ E1 E2. split; auto. assert (B : i < length Ls) by (apply nth_error_Some; congruence). intros r. rewrite E2. split.
    - intros [Hr|[Hr N]]; [exists i, L'; rewrite set_nth_same by exact B; split; auto; apply E1; auto|]. apply MI in Hr. destruct Hr as (j & L0 & Hj & Ij). destruct (Nat.eq_dec i j) as [<-|Nj].
      + exists i, L'. rewrite set_nth_same by exact B. split; auto. apply E1. right. split; auto. congruence.
      + exists j, L0. now rewrite set_nth_other.
    - intros (j & L0 & Hj & Ij). destruct (Nat.eq_dec i j) as [<-|N].
      + rewrite set_nth_same in Hj by exact B. inversion Hj; subst L0. apply E1 in Ij. destruct Ij as [Ij|[Ij N]]; auto. right. split; auto. apply MI. eauto.
      + rewrite set_nth_other in Hj by exact N. right. split; [apply MI; eauto|]. intros X. pose proof (proj2 (Gd _ _ Hj) _ Ij). congruence.
  Qed.
  (** The record at the iterator. *)
  Lemma cur_facts up t g x : inv up t g -> g_cur g = Some x -> exists i o v v', hd_error (t_heap t) = Some i /\ nth_error (t_dbs t) i = Some o /\ In (x, v) (o_recs o) /\ In (x, v) (g_recs g) /\
    h x = i /\ o_pos o 0 = Some x /\ nth_error (t_slots t) i = Some (x, v') /\ (g_fresh g = true -> v' = v) /\ heaped cmp up (t_slots t) (t_heap t) /\ ascending cmp (o_recs o) /\ t_asc t = up /\
    stands up (from up x) (within (t_dbs t)) (if g_fresh g then None else Some i) (t_dbs t) (t_slots t) (t_heap t).
  Proof.
    intros (I1 & I2 & I3 & I4) C. rewrite C in I4. destruct I4 as (I4 & i & v' & H1 & H2 & St). pose proof St as (S1 & S2 & S3 & S4 & S5).
    assert (Ii : In i (t_heap t)) by (destruct (t_heap t); cbn in H1; [discriminate|inversion H1; now left]). pose proof (S3 _ Ii) as W. destruct (nth_error (t_dbs t) i) as [o|] eqn:Ho; [|apply nth_error_None in Ho; unfold within in W; lia].
    pose proof (S5 i o W Ho) as Q. destruct (scan up (from up x) (o_recs o)) as [[k v]|] eqn:Sc; [|contradiction]. destruct Q as (_ & (v1 & Q2 & Q3) & Q4). cbn in *. rewrite Q2 in H2. inversion H2; subst k v1. clear H2.
    destruct (I1 _ _ (recs_nth _ _ _ Ho)) as [A K]. destruct (scan_some _ _ _ _ A Sc) as (J1 & _ & _). exists i, o, v, v'. repeat (split; auto); [|apply (K _ J1)|intros Fr; rewrite Fr in Q3; apply Q3; discriminate]. apply I2. exists i, (o_recs o). split; auto. now apply recs_nth.
  Qed.
  Lemma fill_inv m alias t g r t' up : fill cmp m (mdir m) alias 0 (cleared t) r t' -> inv up t g ->
    (forall a o, alias = Some a -> nth_error (t_dbs t) a = Some o -> exists rr, scan (mdir m) (mf m) (o_recs o) = Some rr /\ fst rr = slot_key (t_slots t) a) ->
    r = Some SUCCESS /\ inv (mdir m) (with_asc t' r (mdir m)) (going g (key_of (scan (mdir m) (mf m) (g_recs g)))).
  Proof.
    intros F (I1 & I2 & I3 & _) Al. destruct (fill_ok m alias _ _ _ _ F) as (-> & E & St); cbn [cleared t_dbs t_slots t_heap]; auto; [lia| |].
    - split; auto. split; [constructor|]. split; [intros j []|]. split; [intros i x p _ Hx _; destruct i; discriminate|]. intros j o Hj. lia.
    - cbn [cleared t_dbs] in E. rewrite <- E in I1, I2. split; auto. split; [exact I1|]. split; [exact I2|]. split; [apply St|]. cbn [with_asc t_dbs t_slots t_heap t_asc going g_cur g_recs g_fresh].
      pose proof (settle _ _ _ _ _ _ I1 I2 (mf_up m) St) as Q. destruct (scan (mdir m) (mf m) (g_recs g)) as [[x v]|]; [|exact Q]. cbn [key_of option_map fst]. split; auto. destruct Q as (i & Q1 & Q2 & Q3). exists i, v. auto.
  Qed.
  Lemma popped_front asc sl hp i hp' f : popped cmp asc sl hp (Some (i, hp')) -> hd_error hp = Some f -> i = f.
  Proof. intros (_ & E & _) F. congruence. Qed.
  Lemma rest_stands up x st dbs sl hp i hp' o' : good (recs dbs) -> h x = i -> i < length dbs -> st = None \/ st = Some i -> stands up (from up x) (within dbs) st dbs sl hp -> popped cmp up sl hp (Some (i, hp')) ->
    stands up (beyond up x) (fun j => within dbs j /\ j <> i) None (set_nth dbs i o') sl hp'.
  Proof.
    intros Gd Hx B Hst (S1 & S2 & S3 & S4 & S5) (_ & P1 & P2 & P3). assert (N : NoDup (i :: hp')) by (eapply Permutation_NoDup; eauto). inversion N as [|? ? N1 N2]; subst.
    split; [now rewrite set_nth_length|]. split; auto. split; [|split; auto].
    - intros j Hj. split; [apply S3, (Permutation_in j (Permutation_sym P2)); now right|]. intros ->. contradiction.
    - intros j o [Wj Nj] Hj. rewrite set_nth_other in Hj by congruence. destruct (Gd _ _ (recs_nth _ _ _ Hj)) as [A K]. specialize (S5 j o Wj Hj).
      assert (E : scan up (from up x) (o_recs o) = scan up (beyond up x) (o_recs o)).
      { apply scan_ext; auto. intros r. rewrite from_spec, beyond_spec. split; intros [R1 R2]; split; auto; [|congruence]. destruct (ordb up x (fst r)) eqn:Eo; try congruence. apply ord_eq in Eo. specialize (K _ R1). congruence. }
      rewrite <- E. destruct (scan up (from up x) (o_recs o)) as [r|].
      + destruct S5 as (T1 & (v & T2 & T3) & T4). split; [apply (Permutation_in j P2) in T1; destruct T1; [congruence|auto]|]. split; auto. exists v. split; auto. intros _. apply T3. destruct Hst as [->| ->]; congruence.
      + intros Hj'. apply S5. apply (Permutation_in j (Permutation_sym P2)). now right.
  Qed.
  Lemma refill_ok up f t i hp r t' o : refill cmp up t i hp r t' -> stands up f (fun j => within (t_dbs t) j /\ j <> i) None (t_dbs t) (t_slots t) hp -> nth_error (t_dbs t) i = Some o -> ascending cmp (o_recs o) ->
    match o_pos o 0 with Some k => o_ge cmp k (o_recs o) | None => None end = scan up f (o_recs o) ->
    (r = Some SUCCESS \/ r = Some NOT_FOUND_ERROR) /\ recs (t_dbs t') = recs (t_dbs t) /\ t_asc t' = t_asc t /\ stands up f (within (t_dbs t')) None (t_dbs t') (t_slots t') (t_heap t').
  Proof.
    intros R St Ho A E. assert (B : i < length (t_dbs t)) by (apply nth_error_Some; congruence). assert (NP : ~ (fun j => within (t_dbs t) j /\ j <> i) i) by (cbn; tauto).
    destruct R as [o0 cd o1 kv H0 H1 H2|o0 o1 kv H0 H1 H2|o0 o1 kv hp' H0 H1 H2]; assert (o0 = o) as -> by congruence; destruct (get_step _ _ _ _ A H1) as [G0 G1]; rewrite E in G1; cbn [t_dbs t_slots t_heap t_asc].
    - destruct (scan up f (o_recs o)) eqn:Sc; [destruct G1; congruence|]. subst cd. split; auto. split; [rewrite recs_set; apply set_nth_id; rewrite G0; now apply recs_nth|]. split; auto. assert (Sc' : scan up f (o_recs o1) = None) by now rewrite G0.
      assert (Q := add_none _ _ _ _ _ _ i o1 St NP Sc' B). eapply (stands_same _ _ _ _ _ _ _ _ _) in Q; [exact Q| | |auto]; unfold within; rewrite set_nth_length; cbn; [intros j Hj; lia|]. intros j Hj. destruct St as (_ & _ & S3 & _). apply (S3 _ Hj).
    - exfalso. cbn in H2. apply H2. eapply still_heap; [exact St|exact NP].
    - destruct (scan up f (o_recs o)) as [rr|] eqn:Sc; [|discriminate]. destruct G1 as (_ & -> & G2). split; auto. split; [rewrite recs_set; apply set_nth_id; rewrite G0; now apply recs_nth|]. split; auto. assert (Sc' : scan up f (o_recs o1) = Some rr) by now rewrite G0.
      assert (Q := add_push _ _ _ _ _ _ i o1 rr hp' St NP Sc' G2 B H2). eapply (stands_same _ _ _ _ _ _ _ _ _) in Q; [exact Q| | |auto]; unfold within; rewrite set_nth_length; cbn; [intros j Hj; lia|]. intros j Hj. destruct Q as (_ & _ & S3 & _). specialize (S3 _ Hj). cbn in S3. unfold within in S3. lia.
  Qed.
  Lemma settled_inv up f t G : good (recs (t_dbs t)) -> merged (recs (t_dbs t)) G -> upclosed up f -> t_asc t = up -> stands up f (within (t_dbs t)) None (t_dbs t) (t_slots t) (t_heap t) ->
    inv up t (mkG G (key_of (scan up f G)) true).
  Proof.
    intros Gd M U Ha St. split; auto. split; auto. split; [apply St|]. cbn. pose proof (settle _ _ _ _ _ _ Gd M U St) as Q. destruct (scan up f G) as [[x v]|]; [|exact Q]. cbn. split; auto. destruct Q as (i & Q1 & Q2 & Q3). exists i, v. auto.
  Qed.
  Variable T : Type.
  Lemma advance_ok up t g x r t' : inv up t g -> g_cur g = Some x -> advance cmp T (if up then KItNext 0 else KItPrev 0) up t r t' ->
    r = UCode T SUCCESS /\ inv up t' (going g (key_of (scan up (beyond up x) (g_recs g)))).
  Proof.
    intros V C W. pose proof V as (Gd & M & _). destruct (cur_facts _ _ _ _ V C) as (i & o & v & v' & F1 & F2 & F3 & F4 & F5 & F6 & F7 & F8 & F9 & F10 & F11 & F12).
    assert (B : i < length (t_dbs t)) by (apply nth_error_Some; congruence).
    assert (MV : forall cd o1 (y : bytes * bytes), ostep cmp (bytes * bytes) (if up then KItNext 0 else KItPrev 0) o ([], []) cd o1 y -> cd = SUCCESS /\ o_recs o1 = o_recs o /\ o_pos o1 0 = at_key (scan up (beyond up x) (o_recs o))).
    { intros cd o1 y Q. destruct up; cbn [ostep] in Q; rewrite F6 in Q.
      - destruct Q as (Q1 & _ & Q2 & Q3). split; auto. split; auto. rewrite (Q3 0). cbn. now rewrite gt_scan.
      - destruct Q as (Q1 & _ & Q2 & r0 & Q3 & Q4 & _). split; auto. split; auto. rewrite (Q3 0). cbn. rewrite Q4 by (rewrite (in_find _ _ _ F10 F3); discriminate). now rewrite lt_scan. }
    destruct W as [W|i0 hp o0 cd o1 y P1 P2 P3 P4|i0 hp o0 o1 y r t' P1 P2 P3 P4].
    - cbn in W. contradiction.
    - pose proof (popped_front _ _ _ _ _ _ P1 F1) as EI. rewrite EI in *. clear EI i0. assert (o0 = o) as -> by congruence. destruct (MV _ _ _ P3); congruence.
    - pose proof (popped_front _ _ _ _ _ _ P1 F1) as EI. rewrite EI in *. clear EI i0. assert (o0 = o) as -> by congruence. destruct (MV _ _ _ P3) as (_ & E1 & E2).
      assert (RS : recs (set_nth (t_dbs t) i o1) = recs (t_dbs t)) by (rewrite recs_set; apply set_nth_id; rewrite E1; now apply recs_nth).
      assert (Rest : stands up (beyond up x) (fun j => within (t_dbs (set_db t i o1)) j /\ j <> i) None (t_dbs (set_db t i o1)) (t_slots (set_db t i o1)) hp).
      { cbn. unfold within. rewrite set_nth_length. apply (rest_stands up x (if g_fresh g then None else Some i) _ _ (t_heap t)); auto. destruct (g_fresh g); auto. }
      destruct (refill_ok up (beyond up x) _ _ _ _ _ o1 P4 Rest) as (R1 & R2 & R3 & R4); cbn; [now apply set_nth_same|now rewrite E1|rewrite E2, E1; now apply self_ge|].
      change (t_dbs (set_db t i o1)) with (set_nth (t_dbs t) i o1) in R2. change (t_asc (set_db t i o1)) with (t_asc t) in R3. rewrite RS in R2. split; [destruct R1 as [->| ->]; reflexivity|]. apply settled_inv; auto; [now rewrite R2|now rewrite R2|apply beyond_up|congruence].
  Qed.
  (** The call of a processor at the iterator. *)
  Lemma process_at U (o : ost) x v (p : proc U) w s cd o' s' : ascending cmp (o_recs o) -> In (x, v) (o_recs o) -> o_pos o 0 = Some x -> ostep cmp _ (KItProcess 0 p w) o s cd o' s' ->
    cd = SUCCESS /\ s' = snd (on_full p x v s) /\ o_pos o' 0 = Some x /\
    o_recs o' = if w then match fst (on_full p x v s) with ANoop => o_recs o | ARemove => o_del cmp x (o_recs o) | ASet v1 => o_put cmp x v1 (o_recs o) end else o_recs o.
  Proof.
    intros A I0 P W. cbn [ostep] in W. rewrite P, (in_ge _ _ _ A I0) in W. destruct W as (M & W1 & W2 & W3). unfold o_process, o_call in W2, W3. rewrite (in_find _ _ _ A I0) in W2, W3. destruct (on_full p x v s) as [a s1]. cbn in *. split; auto. split; auto. split; [now rewrite (M 0)|]. rewrite W2. destruct w, a; reflexivity.
  Qed.
  (** The record is removed: the iterator goes to the next one. *)
  Lemma removal_ok t g x i o o' r t' : inv true t g -> g_cur g = Some x -> hd_error (t_heap t) = Some i -> nth_error (t_dbs t) i = Some o -> o_recs o' = o_del cmp x (o_recs o) -> o_pos o' 0 = Some x ->
    after_removal cmp (set_db t i o') r t' -> r = Some tt /\ inv true t' (mkG (o_del cmp x (g_recs g)) (key_of (o_gt cmp x (g_recs g))) true).
  Proof.
    intros V C Hi Ho E P W. pose proof V as (Gd & M & _). destruct (cur_facts _ _ _ _ V C) as (i0 & o0 & v & v' & F1 & F2 & F3 & F4 & F5 & F6 & F7 & F8 & F9 & F10 & F11 & F12).
    assert (EI : i0 = i) by congruence. rewrite EI in *. clear EI i0. assert (o0 = o) by congruence. subst o0. assert (B : i < length (t_dbs t)) by (apply nth_error_Some; congruence).
    assert (AG : ascending cmp (g_recs g)) by apply M. assert (AD : ascending cmp (o_del cmp x (o_recs o))) by now apply del_asc.
    assert (ID : forall r0, In r0 (o_del cmp x (o_recs o)) <-> False \/ In r0 (o_recs o) /\ fst r0 <> x) by (intros r0; rewrite in_del by exact F10; tauto).
    assert (IG : forall r0, In r0 (o_del cmp x (g_recs g)) <-> False \/ In r0 (g_recs g) /\ fst r0 <> x) by (intros r0; rewrite in_del by exact AG; tauto).
    assert (Gd' : good (recs (set_nth (t_dbs t) i o'))) by (rewrite recs_set, E; eapply (good_upd _ _ _ x _ (fun _ => False)); eauto using recs_nth; tauto).
    assert (M' : merged (recs (set_nth (t_dbs t) i o')) (o_del cmp x (g_recs g))) by (rewrite recs_set, E; eapply (merged_upd _ _ _ _ x _ _ (fun _ => False)); eauto using recs_nth, del_asc; tauto).
    destruct W as [W|i1 hp r t' P1 P2]; [cbn in W; contradiction|]. cbn in P1. pose proof (popped_front _ _ _ _ _ _ P1 F1) as EI. rewrite EI in *. clear EI i1.
    assert (Rest : stands true (beyond true x) (fun j => within (t_dbs (set_db t i o')) j /\ j <> i) None (t_dbs (set_db t i o')) (t_slots (set_db t i o')) hp).
    { cbn. unfold within. rewrite set_nth_length. apply (rest_stands true x (if g_fresh g then None else Some i) _ _ (t_heap t)); auto. destruct (g_fresh g); auto. }
    assert (BX : forall L, ascending cmp L -> forall r0, (In r0 (o_del cmp x L) /\ from true x r0 = true <-> In r0 (o_del cmp x L) /\ beyond true x r0 = true)).
    { intros L AL r0. rewrite in_del, from_spec, beyond_spec by exact AL. split; intros [[R1 R2] R3]; (split; [auto|]); [|congruence]. destruct (ordb true x (fst r0)) eqn:Eo; try congruence. apply ord_eq in Eo. congruence. }
    destruct (refill_ok true (beyond true x) _ _ _ _ _ o' P2 Rest) as (R1 & R2 & R3 & R4); cbn; [now apply set_nth_same|now rewrite E| |].
    - rewrite P, E, ge_scan. apply scan_ext; auto.
    - change (t_dbs (set_db t i o')) with (set_nth (t_dbs t) i o') in R2. change (t_asc (set_db t i o')) with (t_asc t) in R3. split; [destruct R1 as [->| ->]; reflexivity|].
      assert (EG : o_gt cmp x (g_recs g) = scan true (beyond true x) (o_del cmp x (g_recs g))).
      { rewrite gt_scan. apply scan_ext; auto; [now apply del_asc|]. intros r0. rewrite in_del, beyond_spec by exact AG. split; [intros [Q1 Q2]; split; auto; split; auto; intros X; rewrite X, ord_same in Q2; discriminate|tauto]. }
      rewrite EG. apply settled_inv; auto; [now rewrite R2|now rewrite R2|apply beyond_up|congruence].
  Qed.
  (** The value of the record is replaced, or nothing is changed. *)
  Lemma put_inv up t g x i o o' v1 (fr : bool) : inv up t g -> g_cur g = Some x -> hd_error (t_heap t) = Some i -> nth_error (t_dbs t) i = Some o -> o_recs o' = o_put cmp x v1 (o_recs o) -> o_pos o' 0 = Some x ->
    inv up (mkSit (set_nth (t_dbs t) i o') (if fr then set_nth (t_slots t) i (slot_key (t_slots t) i, v1) else t_slots t) (t_heap t) (t_asc t)) (mkG (o_put cmp x v1 (g_recs g)) (Some x) fr).
  Proof.
    intros V C Hi Ho E P. pose proof V as (Gd & M & Ls & _). destruct (cur_facts _ _ _ _ V C) as (i0 & o0 & v & v' & F1 & F2 & F3 & F4 & F5 & F6 & F7 & F8 & F9 & F10 & F11 & F12).
    assert (EI : i0 = i) by congruence. rewrite EI in *. clear EI i0. assert (o0 = o) by congruence. subst o0. assert (B : i < length (t_dbs t)) by (apply nth_error_Some; congruence).
    assert (AG : ascending cmp (g_recs g)) by apply M. assert (AD : ascending cmp (o_put cmp x v1 (o_recs o))) by now apply put_asc.
    assert (Gd' : good (recs (set_nth (t_dbs t) i o'))). { rewrite recs_set, E. eapply (good_upd _ _ _ x _ (fun r => r = (x, v1))); eauto using recs_nth; [intros r ->; reflexivity|intros r; now apply in_put]. }
    assert (M' : merged (recs (set_nth (t_dbs t) i o')) (o_put cmp x v1 (g_recs g))). { rewrite recs_set, E. eapply (merged_upd _ _ _ _ x _ _ (fun r => r = (x, v1))); eauto using recs_nth, put_asc; [intros r ->; reflexivity|intros r; now apply in_put|intros r; now apply in_put]. }
    split; auto. split; auto. cbn [t_dbs t_slots t_heap t_asc g_cur g_fresh]. assert (SK : slot_key (t_slots t) i = x) by now rewrite (slot_key_nth _ _ _ F7).
    assert (LL : length (if fr then set_nth (t_slots t) i (slot_key (t_slots t) i, v1) else t_slots t) = length (set_nth (t_dbs t) i o')) by (destruct fr; rewrite ?set_nth_length; auto). split; auto. split; auto.
    exists i, (if fr then v1 else v'). split; auto. split; [destruct fr; auto; rewrite set_nth_same by lia; now rewrite SK|].
    destruct F12 as (S1 & S2 & S3 & S4 & S5). split; auto. split; auto. split; [unfold within; now rewrite set_nth_length|]. split.
    - destruct fr; auto. eapply heaped_keys; [|exact S4]. intros j Hj. destruct (Nat.eq_dec i j) as [<-|N]; [|now rewrite key_set_other]. rewrite SK. symmetry. assert (Q : nth_error (set_nth (t_slots t) i (x, v1)) i = Some (x, v1)) by (apply set_nth_same; lia). now rewrite (slot_key_nth _ _ _ Q).
    - intros j oj Wj Hj. unfold within in Wj. rewrite set_nth_length in Wj. destruct (Nat.eq_dec i j) as [<-|N].
      + rewrite set_nth_same in Hj by exact B. inversion Hj; subst oj. rewrite E. assert (Sc : scan up (from up x) (o_put cmp x v1 (o_recs o)) = Some (x, v1)).
        { assert (I1 : In (x, v1) (o_put cmp x v1 (o_recs o))) by (apply in_put; auto). assert (Fx : from up x (x, v1) = true) by (apply from_spec; cbn; rewrite ord_same; discriminate).
          destruct (scan up (from up x) (o_put cmp x v1 (o_recs o))) as [rr|] eqn:Es; [|rewrite (scan_none _ _ _ Es _ I1) in Fx; discriminate]. destruct (scan_some _ _ _ _ AD Es) as (J1 & J2 & J3). destruct (J3 _ I1 Fx) as [<-|L1]; auto. exfalso. apply from_spec in J2. apply J2. apply ord_gt. exact L1. }
        rewrite Sc. split; [destruct (t_heap t); cbn in Hi; [discriminate|inversion Hi; now left]|]. split; auto. cbn. destruct fr; [exists v1; rewrite set_nth_same by lia; rewrite SK; auto|exists v'; split; auto; congruence].
      + rewrite set_nth_other in Hj by exact N. specialize (S5 j oj Wj Hj). destruct (scan up (from up x) (o_recs oj)); auto. destruct S5 as (T1 & (vv & T2 & T3) & T4). split; auto. split; auto. exists vv. split; [destruct fr; auto; now rewrite set_nth_other|]. intros _. apply T3. destruct (g_fresh g); congruence.
  Qed.
  Lemma same_inv up t g x i o o' : inv up t g -> g_cur g = Some x -> hd_error (t_heap t) = Some i -> nth_error (t_dbs t) i = Some o -> o_recs o' = o_recs o -> o_pos o' 0 = Some x -> inv up (set_db t i o') g.
  Proof.
    intros V C Hi Ho E P. destruct (cur_facts _ _ _ _ V C) as (i0 & o0 & v & v' & F1 & F2 & F3 & F4 & F5 & F6 & F7 & F8 & F9 & F10 & F11 & F12). assert (EI : i0 = i) by congruence. rewrite EI in *. clear EI i0. assert (o0 = o) by congruence. subst o0.
    assert (B : i < length (t_dbs t)) by (apply nth_error_Some; congruence). destruct V as (V1 & V2 & V3 & V4). rewrite C in V4. destruct V4 as (V4 & i1 & v1 & V5 & V6 & V7). assert (i1 = i) by congruence. subst i1.
    assert (RS : recs (set_nth (t_dbs t) i o') = recs (t_dbs t)) by (rewrite recs_set; apply set_nth_id; rewrite E; now apply recs_nth).
    unfold inv. cbn [set_db t_dbs t_slots t_heap t_asc]. rewrite RS, set_nth_length, C. split; auto. split; auto. split; auto. split; auto. exists i, v1. split; auto. split; auto. destruct V7 as (S1 & S2 & S3 & S4 & S5). split; [now rewrite set_nth_length|]. split; auto. split; [unfold within; now rewrite set_nth_length|]. split; auto.
    intros j oj Wj Hj. unfold within in Wj. rewrite set_nth_length in Wj. destruct (Nat.eq_dec i j) as [<-|N]; [|rewrite set_nth_other in Hj by exact N; now apply S5]. rewrite set_nth_same in Hj by exact B. inversion Hj; subst oj. specialize (S5 i o Wj Ho). rewrite E, P. rewrite F6 in S5. exact S5.
  Qed.
  Lemma cur_none up t g : inv up t g -> t_heap t = [] -> g_cur g = None.
  Proof. intros V H. destruct (g_cur g) eqn:C; auto. destruct (cur_facts _ _ _ _ V C) as (i & o & v & v' & F1 & _). rewrite H in F1. discriminate. Qed.
  Lemma none_any up up' t g : inv up t g -> g_cur g = None -> inv up' t g.
  Proof. intros V C. unfold inv in *. rewrite C in *. exact V. Qed.
  Lemma cur_some up t g i : inv up t g -> hd_error (t_heap t) = Some i -> exists x, g_cur g = Some x.
  Proof. intros V H. destruct (g_cur g) eqn:C; eauto. destruct V as (_ & _ & _ & V). rewrite C in V. rewrite V in H. discriminate. Qed.
  Lemma heap_some up t g : inv up t g -> t_heap t <> [] -> exists x i, g_cur g = Some x /\ hd_error (t_heap t) = Some i.
  Proof. intros V H. destruct (t_heap t) as [|i hp] eqn:E; [congruence|]. assert (Hd : hd_error (t_heap t) = Some i) by now rewrite E. destruct (cur_some _ _ _ _ V Hd) as [x C]. exists x, i. auto. Qed.
  (** Turning: the move to the current key finds the current record. *)
  Lemma turn_ok up t g m f r t1 : inv up t g -> hd_error (t_heap t) = Some f -> m = (if up then MLower (slot_key (t_slots t) f) true else MJump (slot_key (t_slots t) f)) ->
    fill cmp m (negb up) (Some f) 0 (cleared t) r t1 -> exists x, g_cur g = Some x /\ r = Some SUCCESS /\ inv (negb up) (with_asc t1 r (negb up)) (going g (Some x)).
  Proof.
    intros V Hf Em F. destruct (cur_some _ _ _ _ V Hf) as [x C]. exists x. split; auto. destruct (cur_facts _ _ _ _ V C) as (i0 & o0 & v & v' & F1 & F2 & F3 & F4 & F5 & F6 & F7 & F8 & F9 & F10 & F11 & F12). assert (EI : i0 = f) by congruence. rewrite EI in *. clear EI i0.
    pose proof (slot_key_nth _ _ _ F7) as SK. cbn in SK. rewrite SK in Em. assert (MD : mdir m = negb up) by (subst m; now destruct up). assert (MF : mf m = from (negb up) x) by (subst m; now destruct up). rewrite <- MD in F.
    assert (SX : forall L, ascending cmp L -> In (x, v) L -> scan (mdir m) (mf m) L = Some (x, v)).
    { intros L A I1. rewrite MD, MF. assert (Fx : from (negb up) x (x, v) = true) by (apply from_spec; cbn; rewrite ord_same; discriminate). destruct (scan (negb up) (from (negb up) x) L) as [rr|] eqn:Es; [|rewrite (scan_none _ _ _ Es _ I1) in Fx; discriminate]. destruct (scan_some _ _ _ _ A Es) as (J1 & J2 & J3). destruct (J3 _ I1 Fx) as [<-|L1]; auto. exfalso. apply from_spec in J2. apply J2. apply ord_gt. exact L1. }
    destruct (fill_inv m (Some f) t g r t1 up F V) as [R1 R2].
    - intros a oa Ea Ha. inversion Ea; subst a. assert (oa = o0) by congruence. subst oa. exists (x, v). split; [apply SX; auto|]. now rewrite SK.
    - split; auto. rewrite MD in R2. assert (AG : ascending cmp (g_recs g)) by (destruct V as (_ & M & _); apply M). specialize (SX _ AG F4). rewrite MD in SX. rewrite SX in R2. exact R2.
  Qed.
  Lemma step_ok up t g c r t' : inv up t g -> allowed1 T up c -> sit_step cmp T c t r t' -> exists g', git_step cmp T c g r g' /\ inv (heading T up c) t' g'.
  Proof.
    intros V Al W. destruct W; cbn [heading allowed1] in *.
    - destruct (fill_inv MFirst None t g r t' up H V) as [-> I1]; [discriminate|]. eexists. split; [apply gs_first|]. cbn [mdir mf] in I1. rewrite <- hd_scan in I1. exact I1.
    - destruct (fill_inv MLast None t g r t' up H V) as [-> I1]; [discriminate|]. eexists. split; [apply gs_last|]. cbn [mdir mf] in I1. rewrite <- hd_scan in I1. exact I1.
    - destruct (fill_inv (MJump k) None t g r t' up H V) as [-> I1]; [discriminate|]. eexists. split; [apply gs_jump|]. cbn [mdir mf] in I1. rewrite <- ge_scan in I1. exact I1.
    - destruct (fill_inv (MLower k b) None t g r t' up H V) as [-> I1]; [discriminate|]. eexists. split; [apply gs_lower|]. cbn [mdir mf] in I1. destruct b; [rewrite <- le_scan in I1|rewrite <- lt_scan in I1]; exact I1.
    - destruct (fill_inv (MUpper k b) None t g r t' up H V) as [-> I1]; [discriminate|]. eexists. split; [apply gs_upper|]. cbn [mdir mf] in I1. destruct b; [rewrite <- ge_scan in I1|rewrite <- gt_scan in I1]; exact I1.
    - pose proof (cur_none _ _ _ V H) as C. exists g. split; [apply gs_none; auto|]. eapply none_any; eauto.
    - destruct (heap_some _ _ _ V H) as (x & i & C & Hi). pose proof V as (_ & _ & _ & V4). rewrite C in V4. destruct V4 as [V4 _]. assert (EU : up = true) by congruence. rewrite EU in *. clear EU V4 up. destruct (advance_ok true t g x r t' V C H1) as [-> I1]. eexists. split; [apply gs_next; exact C|]. rewrite gt_scan. exact I1.
    - destruct (cur_some _ _ _ _ V H) as [x0 C0]. assert (up = false) by (pose proof V as (_ & _ & _ & V4); rewrite C0 in V4; destruct V4; congruence). subst up. destruct (turn_ok false t g _ f r t1 V H eq_refl H1) as (x & C & -> & _). congruence.
    - destruct (cur_some _ _ _ _ V H) as [x0 C0]. assert (up = false) by (pose proof V as (_ & _ & _ & V4); rewrite C0 in V4; destruct V4; congruence). subst up. destruct (turn_ok false t g _ f _ t1 V H eq_refl H1) as (x & C & _ & I1). apply cur_none in I1; [discriminate|exact H2].
    - destruct (cur_some _ _ _ _ V H) as [x0 C0]. assert (up = false) by (pose proof V as (_ & _ & _ & V4); rewrite C0 in V4; destruct V4; congruence). subst up. destruct (turn_ok false t g _ f _ t1 V H eq_refl H1) as (x & C & _ & I1). destruct (advance_ok true _ (going g (Some x)) x r t' I1 eq_refl H3) as [-> I2]. eexists. split; [apply gs_next; exact C|]. rewrite gt_scan. exact I2.
    - pose proof (cur_none _ _ _ V H) as C. exists g. split; [apply gs_none; auto|]. eapply none_any; eauto.
    - destruct (heap_some _ _ _ V H) as (x & i & C & Hi). pose proof V as (_ & _ & _ & V4). rewrite C in V4. destruct V4 as [V4 _]. assert (EU : up = false) by congruence. rewrite EU in *. clear EU V4 up. destruct (advance_ok false t g x r t' V C H1) as [-> I1]. eexists. split; [apply gs_prev; exact C|]. rewrite lt_scan. exact I1.
    - destruct (cur_some _ _ _ _ V H) as [x0 C0]. assert (up = true) by (pose proof V as (_ & _ & _ & V4); rewrite C0 in V4; destruct V4; congruence). subst up. destruct (turn_ok true t g _ f r t1 V H eq_refl H1) as (x & C & -> & _). congruence.
    - destruct (cur_some _ _ _ _ V H) as [x0 C0]. assert (up = true) by (pose proof V as (_ & _ & _ & V4); rewrite C0 in V4; destruct V4; congruence). subst up. destruct (turn_ok true t g _ f _ t1 V H eq_refl H1) as (x & C & _ & I1). apply cur_none in I1; [discriminate|exact H2].
    - destruct (cur_some _ _ _ _ V H) as [x0 C0]. assert (up = true) by (pose proof V as (_ & _ & _ & V4); rewrite C0 in V4; destruct V4; congruence). subst up. destruct (turn_ok true t g _ f _ t1 V H eq_refl H1) as (x & C & _ & I1). destruct (advance_ok false _ (going g (Some x)) x r t' I1 eq_refl H3) as [-> I2]. eexists. split; [apply gs_prev; exact C|]. rewrite lt_scan. exact I2.
    - pose proof (cur_none _ _ _ V H) as C. exists g. split; [now apply gs_none_get|exact V].
    - destruct (cur_some _ _ _ _ V H) as [x C]. destruct (cur_facts _ _ _ _ V C) as (i & o & v & v' & F1 & F2 & F3 & F4 & F5 & F6 & F7 & F8 & F9 & F10 & F11 & F12). assert (EI : i = f) by congruence. rewrite EI in *. clear EI i. exists g. split; [|exact V]. rewrite (nth_error_nth _ _ _ F7). apply (gs_get cmp T g x v v'); auto. apply in_find; auto. destruct V as (_ & M & _). apply M.
    - pose proof (cur_none _ _ _ V H) as C. exists g. split; [apply gs_none; auto|]. eapply none_any; eauto.
    - destruct (cur_some _ _ _ _ V H) as [x C]. destruct (cur_facts _ _ _ _ V C) as (i & o0 & v0 & v' & F1 & F2 & F3 & F4 & F5 & F6 & F7 & F8 & F9 & F10 & F11 & F12). assert (EI : i = f) by congruence. rewrite EI in *. clear EI i. assert (o0 = o) by congruence. subst o0.
      destruct (process_at _ o x v0 _ _ _ _ _ _ F10 F3 F6 H1) as (-> & -> & P1 & P2). cbn in P2. cbn. eexists. split; [apply gs_set; exact C|]. apply (put_inv up t g x f o o' v true V C H H0 P2 P1).
    - pose proof (cur_none _ _ _ V H) as C. exists g. split; [apply gs_none; auto|]. eapply none_any; eauto.
    - exfalso. destruct (cur_some _ _ _ _ V H) as [x C]. destruct (cur_facts _ _ _ _ V C) as (i & o0 & v0 & v' & F1 & F2 & F3 & F4 & F5 & F6 & F7 & F8 & F9 & F10 & F11 & F12). assert (EI : i = f) by congruence. rewrite EI in *. clear EI i. assert (o0 = o) by congruence. subst o0.
      destruct (process_at _ o x v0 _ _ _ _ _ _ F10 F3 F6 H1) as (-> & -> & P1 & P2). apply H2. reflexivity.
    - destruct (cur_some _ _ _ _ V H) as [x C]. destruct (cur_facts _ _ _ _ V C) as (i & o0 & v0 & v' & F1 & F2 & F3 & F4 & F5 & F6 & F7 & F8 & F9 & F10 & F11 & F12). assert (EI : i = f) by congruence. rewrite EI in *. clear EI i. assert (o0 = o) by congruence. subst o0.
      destruct (process_at _ o x v0 _ _ _ _ _ _ F10 F3 F6 H1) as (-> & -> & P1 & P2). cbn in P2. subst up. destruct (removal_ok t g x f o o' r t' V C H H0 P2 P1 H3) as [-> I1]. eexists. split; [apply gs_remove; exact C|exact I1].
    - pose proof (cur_none _ _ _ V H) as C. exists g. split; [now apply gs_none_process|exact V].
    - destruct (cur_some _ _ _ _ V H) as [x C]. destruct (cur_facts _ _ _ _ V C) as (i & o0 & v0 & v' & F1 & F2 & F3 & F4 & F5 & F6 & F7 & F8 & F9 & F10 & F11 & F12). assert (EI : i = f) by congruence. rewrite EI in *. clear EI i. assert (o0 = o) by congruence. subst o0.
      destruct (process_at _ o x v0 _ _ _ _ _ _ F10 F3 F6 H1) as (-> & E & P1 & P2). cbn [watch on_full] in E, P2. destruct (on_full p x v0 s) as [a s1] eqn:Of. cbn [fst snd] in E, P2. inversion E; subst s' b. clear E. cbn [code_eqb andb] in H2.
      assert (FG : o_find cmp x (g_recs g) = Some (x, v0)) by (apply in_find; auto; destruct V as (_ & M & _); apply M).
      eexists. split; [apply (gs_process cmp T g x v0 p w s a s1 C FG Of)|]. destruct w; [|apply (same_inv up t g x f o o'); auto]. destruct a as [| |v1].
      + apply (same_inv up t g x f o o'); auto.
      + discriminate.
      + apply (put_inv up t g x f o o' v1 false V C H H0 P2 P1).
    - destruct (cur_some _ _ _ _ V H) as [x C]. destruct (cur_facts _ _ _ _ V C) as (i & o0 & v0 & v' & F1 & F2 & F3 & F4 & F5 & F6 & F7 & F8 & F9 & F10 & F11 & F12). assert (EI : i = f) by congruence. rewrite EI in *. clear EI i. assert (o0 = o) by congruence. subst o0.
      destruct (process_at _ o x v0 _ _ _ _ _ _ F10 F3 F6 H1) as (_ & E & P1 & P2). cbn [watch on_full] in E, P2. destruct (on_full p x v0 s) as [a s1] eqn:Of. cbn [fst snd] in E, P2. subst w. destruct a as [| |v1]; inversion E; subst s1. clear E.
      assert (FG : o_find cmp x (g_recs g) = Some (x, v0)) by (apply in_find; auto; destruct V as (_ & M & _); apply M).
      assert (up = true) as ->. { destruct Al as [Al|[Al|Al]]; [auto|discriminate|]. exfalso. apply (Al x v0 s). now rewrite Of. }
      destruct (removal_ok t g x f o o' r t' V C H H0 P2 P1 H3) as [-> I1]. eexists. split; [apply (gs_process cmp T g x v0 p true s ARemove s' C FG Of)|exact I1].
  Qed.
  Lemma runs_ok : forall cs up t g rs t', inv up t g -> allowed T up cs -> sit_runs cmp T cs t rs t' -> exists g' up', git_runs cmp T cs g rs g' /\ inv up' t' g'.
  Proof.
    induction cs as [|c cs IH]; intros up t g rs t' V Al W; inversion W as [|c0 cs0 t0 r0 t1 rs0 t2 H2 H5]; subst.
    - exists g, up. split; [constructor|exact V].
    - destruct Al as [A1 A2]. destruct (step_ok _ _ _ _ _ _ V A1 H2) as (g1 & G1 & V1). destruct (IH _ _ _ _ _ V1 A2 H5) as (g2 & u2 & G2 & V2). exists g2, u2. split; auto. econstructor; eauto.
  Qed.
  Lemma new_inv dbs G : good (recs dbs) -> merged (recs dbs) G -> forall up, inv up (sit_new dbs) (mkG G None true).
  Proof. intros H1 H2 up. split; [exact H1|]. split; [exact H2|]. split; [cbn; apply repeat_length|reflexivity]. Qed.
End Iter.
