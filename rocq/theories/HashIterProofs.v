(** Lemmas about the hash database iterator. *)
From Coq Require Import Sorted Permutation.
From Verif Require Import Bytes BytesOrder MapSpec CodecModel CodecProofs FileModel HashUtilModel HashUtilProofs HashRecModel
  HashRecProofs FbpModel FbpProofs HashDbModel HashDbLayout HashDbAppend HashDbInPlace HashDbProofs HashIterModel.
Open Scope N_scope.

Lemma kset_mem_in k l : kset_mem k l = true <-> In k l.
Proof.
  unfold kset_mem. rewrite existsb_exists. split.
  - intros (x & Hx & E). apply beqb_eq in E. subst. exact Hx.
  - intros H. exists k. split; [exact H|apply beqb_refl].
Qed.
Lemma kset_add_in k l x : In x (kset_add k l) <-> x = k \/ In x l.
Proof.
  induction l as [|y l IH]; cbn [kset_add In]; [intuition congruence|].
  destruct (bcmp k y) eqn:E; cbn [In].
  - apply bcmp_eq in E. subst. intuition congruence.
  - intuition congruence.
  - rewrite IH. intuition congruence.
Qed.
Lemma kset_add_sorted k l : bsorted l -> bsorted (kset_add k l).
Proof.
  induction 1 as [|y l Hl IH Hy]; cbn [kset_add]; [repeat constructor|].
  destruct (bcmp k y) eqn:E.
  - constructor; assumption.
  - constructor; [constructor; assumption|]. constructor; [exact E|].
    eapply Forall_impl; [|exact Hy]. intros a Ha. eapply blt_trans; eauto.
  - constructor; [exact IH|]. apply Forall_forall. intros x Hx. apply kset_add_in in Hx.
    destruct Hx as [->|Hx]; [apply bcmp_gt; exact E|]. rewrite Forall_forall in Hy. auto.
Qed.

Definition first_set (g : store) (k : bytes) (l : list N) : Prop :=
  exists o r, find_in g k l = Some o /\ g o = Some r /\ is_set_type (r_type r) = true.

Lemma chain_keys_spec d f L mrs l : forall fuel dead keys,
  hcfg_ok (d_c d) -> recs d f L -> linked (lget L) l -> META_MIN_READ_SIZE <= mrs -> (length l < fuel)%nat ->
  bsorted keys ->
  exists ks, chain_keys fuel (d_c d) f mrs (hd 0 l) dead keys = CKeys ks /\ bsorted ks /\
    forall k, In k ks <-> In k keys \/ (~ In k dead /\ first_set (lget L) k l).
Proof.
  induction l as [|o l IH]; intros fuel dead keys Hcfg HR HL Hm Hf Hs.
  - destruct fuel as [|fuel]; [cbn in Hf; lia|]. exists keys. split; [reflexivity|]. split; [exact Hs|].
    intros k. split; [auto|]. intros [H|(_ & o & r & E & _)]; [exact H|discriminate].
  - destruct fuel as [|fuel]; [cbn in Hf; lia|]. cbn [hd chain_keys]. cbn [length] in Hf.
    cbn [linked] in HL. destruct HL as [(r & E & Hch & Hty) HL].
    assert (HR' := HR). destruct HR' as (Hc & _ & Hr). destruct (Hr o r E) as (Hat & Hok & _).
    destruct (contig_range _ _ _ _ _ Hc E) as (Hlo & _). assert (G := record_base_ge d). unfold METADATA_SIZE in G.
    destruct (N.ltb_spec 0 o); [|lia].
    destruct (read_meta_ok _ _ _ _ mrs Hcfg Hok Hat Hm) as (m & Em & M1 & M2 & M3 & _).
    rewrite Em, M1, M2, M3, Hch.
    assert (FS : forall k, first_set (lget L) k (o :: l) <->
       (r_key r = k /\ is_set_type (r_type r) = true) \/ (r_key r <> k /\ first_set (lget L) k l)).
    { intros k. unfold first_set. cbn [find_in]. rewrite E. destruct (beqb_spec k (r_key r)) as [Ek|Nk].
      - split.
        + intros (o' & r' & E1 & E2 & E3). injection E1 as <-. left. split; [congruence|]. congruence.
        + intros [(_ & E3)|(Nk & _)]; [|congruence]. exists o, r. auto.
      - split; [right; split; [congruence|assumption]|]. intros [(Ek & _)|(_ & Hx)]; [congruence|exact Hx]. }
    destruct (kset_mem (r_key r) dead) eqn:Ed.
    + apply kset_mem_in in Ed. destruct (IH fuel dead keys Hcfg HR HL Hm ltac:(lia) Hs) as (ks & K1 & K2 & K3).
      exists ks. split; [exact K1|]. split; [exact K2|]. intros k. rewrite K3, FS. intuition (subst; tauto).
    + assert (Nd : ~ In (r_key r) dead) by (rewrite <- kset_mem_in; congruence).
      assert (SetCase : is_set_type (r_type r) = true ->
        exists ks, chain_keys fuel (d_c d) f mrs (hd 0 l) dead (kset_add (r_key r) keys) = CKeys ks /\ bsorted ks /\
          forall k, In k ks <-> In k keys \/ (~ In k dead /\ first_set (lget L) k (o :: l))).
      { intros Hset. destruct (IH fuel dead (kset_add (r_key r) keys) Hcfg HR HL Hm ltac:(lia)) as (ks & K1 & K2 & K3).
        { apply kset_add_sorted; exact Hs. }
        exists ks. split; [exact K1|]. split; [exact K2|]. intros k. rewrite K3, FS, kset_add_in.
        destruct (bytes_eq_dec (r_key r) k) as [Ek|Nk].
        - rewrite Ek in *. tauto.
        - assert (k <> r_key r) by congruence. tauto. }
      destruct (r_type r) eqn:Et; cbn [is_set_type] in *; try (apply SetCase; reflexivity); [congruence| ].
      destruct (IH fuel (kset_add (r_key r) dead) keys Hcfg HR HL Hm ltac:(lia) Hs) as (ks & K1 & K2 & K3).
      exists ks. split; [exact K1|]. split; [exact K2|]. intros k. rewrite K3, FS, kset_add_in.
      destruct (bytes_eq_dec (r_key r) k) as [Ek|Nk].
      * assert (~ false = true) by congruence. rewrite Ek in *. tauto.
      * assert (k <> r_key r) by congruence. tauto.
Qed.

Lemma h_inv_ap d s m : hdb_ok d -> h_inv d s m -> exists L B, ap_inv d s L B m.
Proof.
  intros Hd. unfold h_inv. destruct (d_inplace d); intros (L & B & I); exists L, B; [apply ip_ap; assumption|exact I].
Qed.

Lemma first_set_map d s L B m k b : ap_inv d s L B m -> primary_hash k (d_nb d) = b ->
  (first_set (lget L) k (B b) <-> m k <> None).
Proof.
  intros [HR HB HC HF HM HS] <-. rewrite HM. unfold layout_map, first_set. rewrite (HF k).
  assert (Hcon := proj1 HR).
  destruct (last_in k L) as [[o r]|] eqn:El; cbn [option_map fst].
  - destruct (last_in_lget _ _ _ _ _ _ Hcon El) as (E & _). unfold rec_value. split.
    + intros (o' & r' & E1 & E2 & E3). injection E1 as <-. assert (r' = r) by congruence. subst. rewrite E3. discriminate.
    + destruct (is_set_type (r_type r)) eqn:Es; [|congruence]. intros _. exists o, r. auto.
  - split; [intros (o' & r' & E1 & _); discriminate|congruence].
Qed.
Lemma first_set_in g k l : first_set g k l -> exists o r, In o l /\ g o = Some r /\ r_key r = k.
Proof.
  intros (o & r & E & Hg & _). revert E. induction l as [|x l IH]; cbn [find_in]; [discriminate|].
  destruct (g x) as [rx|] eqn:Ex.
  - destruct (beqb_spec k (r_key rx)) as [Ek|Nk].
    + intros E. injection E as ->. exists o, rx. repeat split; auto. left; reflexivity.
    + intros E. destruct (IH E) as (o' & r' & H1 & H2 & H3). exists o', r'. repeat split; auto. right; exact H1.
  - intros E. destruct (IH E) as (o' & r' & H1 & H2 & H3). exists o', r'. repeat split; auto. right; exact H1.
Qed.

Lemma bucket_keys d s m b : hdb_ok d -> h_inv d s m -> b < d_nb d ->
  exists cur ks, get_bucket d (s_file s) b = Some cur /\
    chain_keys (S (S (N.to_nat (fsize (s_file s))))) (d_c d) (s_file s) (d_mrs d) cur [] [] = CKeys ks /\ bsorted ks /\
    (forall k, In k ks <-> primary_hash k (d_nb d) = b /\ m k <> None) /\ (cur = 0 -> ks = []).
Proof.
  intros Hd Hi Hb. destruct (h_inv_ap d s m Hd Hi) as (L & B & I). assert (I' := I). destruct I' as [HR HB HC HF HM HS].
  destruct Hd as (Hcfg & Hnb & Hmrs). destruct (HC b Hb) as (HL & _ & HH).
  assert (Hlen := chain_length d (s_file s) L B b HR HC Hb).
  destruct (chain_keys_spec d (s_file s) L (d_mrs d) (B b) (S (S (N.to_nat (fsize (s_file s))))) [] [] Hcfg HR HL Hmrs Hlen) as (ks & K1 & K2 & K3); [constructor|].
  exists (hd 0 (B b)), ks. split; [apply HB; exact Hb|]. split; [exact K1|]. split; [exact K2|]. split.
  - intros k. rewrite K3. split.
    + intros [[]|(_ & Hf)]. assert (Hk : primary_hash k (d_nb d) = b).
      { destruct (first_set_in _ _ _ Hf) as (o & r & Ho & Eo & <-). eapply HH; eauto. }
      split; [exact Hk|]. apply (first_set_map d s L B m k b I Hk). exact Hf.
    + intros (Hk & Hm). right. split; [intros []|]. apply (first_set_map d s L B m k b I Hk). exact Hm.
  - intros Hz. rewrite Hz in K1. cbn [chain_keys] in K1. change (0 <? 0) with false in K1. cbv iota in K1. congruence.
Qed.

(** * Reading the next non-empty bucket *)
Lemma read_next_spec d s m : forall fuel b, hdb_ok d -> h_inv d s m -> (N.to_nat (d_nb d - b) < fuel)%nat ->
  (read_next fuel d (s_file s) b [] = (mkhiter None [], INotFound) /\
     forall k, m k <> None -> primary_hash k (d_nb d) < b) \/
  (exists b' ks, read_next fuel d (s_file s) b [] = (mkhiter (Some (b' + 1)) ks, IOk) /\ b <= b' /\ ks <> [] /\ bsorted ks /\
     (forall k, In k ks <-> primary_hash k (d_nb d) = b' /\ m k <> None) /\
     (forall k, m k <> None -> b <= primary_hash k (d_nb d) -> b' <= primary_hash k (d_nb d))).
Proof.
  induction fuel as [|fuel IH]; intros b Hd Hi Hf; [lia|]. cbn [read_next].
  destruct (N.leb_spec (d_nb d) b) as [Hle|Hlt].
  - left. split; [reflexivity|]. intros k _. assert (G := primary_hash_lt k (d_nb d) (proj1 (proj2 Hd))). lia.
  - destruct (bucket_keys d s m b Hd Hi Hlt) as (cur & ks & E1 & E2 & E3 & E4 & E5). rewrite E1, E2.
    destruct ks as [|k0 ks].
    + rewrite andb_false_r. destruct (IH (b + 1) Hd Hi ltac:(lia)) as [[H1 H2]|(b' & ks' & H1 & H2 & H3 & H4 & H5 & H6)].
      * left. split; [exact H1|]. intros k Hk. assert (primary_hash k (d_nb d) <> b); [|specialize (H2 k Hk); lia].
        intros Eb. destruct (proj2 (E4 k) (conj Eb Hk)).
      * right. exists b', ks'. repeat split; auto; try lia; try (apply H5; assumption).
        intros k Hk Hb. apply H6; [exact Hk|]. assert (primary_hash k (d_nb d) <> b); [|lia].
        intros Eb. destruct (proj2 (E4 k) (conj Eb Hk)).
    + destruct (N.ltb_spec 0 cur); [|assert (Z0 : cur = 0) by lia; specialize (E5 Z0); discriminate]. cbn [andb negb]. right. exists b, (k0 :: ks).
      repeat split; auto; try lia; try congruence; try (apply E4; assumption). 
Qed.

(** * The state of an iterator *)
Definition it_ok (d : hdb) (it : hiter) : Prop :=
  match it_bucket it with
  | Some b => bsorted (it_keys it) /\ forall k, In k (it_keys it) -> primary_hash k (d_nb d) < b /\ key_ok k
  | None => it_keys it = []
  end.
Lemma it_first_ok d : it_ok d it_first.
Proof. split; [constructor|intros k []]. Qed.

Lemma live_key_ok d s m k : hdb_ok d -> h_inv d s m -> m k <> None -> key_ok k.
Proof.
  intros Hd Hi Hm. destruct (h_inv_ap d s m Hd Hi) as (L & B & [HR HB HC HF HM HS]).
  rewrite HM in Hm. unfold layout_map in Hm. destruct (last_in k L) as [[o r]|] eqn:El; [|congruence].
  destruct (last_in_lget _ _ _ _ _ _ (proj1 HR) El) as (E & <- & _).
  destruct HR as (_ & _ & Hr). destruct (Hr o r E) as (_ & Hok & _). destruct Hok as (K1 & _ & K3 & _). split; assumption.
Qed.

(** What ReadKeys does: nothing, end, or load the next non-empty bucket. *)
Definition below (d : hdb) (it : hiter) (k : bytes) : Prop :=
  match it_bucket it with Some b => primary_hash k (d_nb d) < b | None => True end.
Lemma read_keys_spec d s m it : hdb_ok d -> h_inv d s m -> it_ok d it ->
  let '(it', st) := read_keys d (s_file s) it in
  it_ok d it' /\
  ((st = IOk /\ it_keys it' <> [] /\ it_bucket it' <> None) \/ (st = INotFound /\ it_keys it' = [] /\ it_bucket it' = None)) /\
  (forall k, In k (it_keys it') <-> In k (it_keys it) \/ (~ below d it k /\ below d it' k /\ m k <> None)) /\
  (forall k, below d it k -> below d it' k) /\
  (it_keys it' = [] -> forall k, m k <> None -> below d it k).
Proof.
  intros Hd Hi Hok. unfold read_keys, it_ok, below in *. destruct (it_bucket it) as [b|] eqn:Eb.
  - destruct (it_keys it) as [|k0 ks0] eqn:Ek.
    + unfold next_bucket. rewrite Eb, Ek.
      destruct (read_next_spec d s m (S (N.to_nat (d_nb d - b))) b Hd Hi ltac:(lia)) as [[H1 H2]|(b' & ks & H1 & H2 & H3 & H4 & H5 & H6)];
        rewrite H1; cbn [it_keys it_bucket].
      * split; [reflexivity|]. split; [right; auto|]. split; [|split; [trivial|intros _; exact H2]].
        intros k. split; [intros []|]. intros [[]|(Hn & _ & Hm)]. destruct (Hn (H2 k Hm)).
      * split; [split; [exact H4|]|].
        -- intros k Hk. apply H5 in Hk. destruct Hk as [Hb Hm]. split; [lia|]. eapply live_key_ok; eauto.
        -- split; [left; destruct ks; [congruence|]; repeat split; congruence|]. split; [|split; [intros k Hk; lia|intros E; congruence]].
           intros k. rewrite H5. split.
           ++ intros [Hb Hm]. right. repeat split; try lia. exact Hm.
           ++ intros [[]|(Hn & Hb & Hm)]. split; [|exact Hm]. specialize (H6 k Hm). lia.
    + rewrite Eb, Ek. split; [exact Hok|]. split; [left; repeat split; congruence|]. split; [|split; [auto|congruence]].
      intros k. split; [auto|]. intros [H|(H1 & H2 & _)]; [exact H|destruct (H1 H2)].
  - rewrite Eb, Hok. split; [reflexivity|]. split; [right; auto|]. split; [|split; [trivial|trivial]].
    intros k. split; [auto|]. intros [[]|(H1 & _)]. destruct (H1 I).
Qed.

(** * One event *)
Definition all_vis (vis : list bytes) (it : hiter) : list bytes := vis ++ it_keys it.
Definition ev_ok (e : ievent) : Prop :=
  match e with
  | EOp o => key_ok (o_key o) /\ forall x, action_ok (o_proc o x)
  | EProc proc _ => forall k v, action_ok (proc k (Some v))
  | ENext => True
  end.
(** [e] does not remove [k] by an operation other than one through the iterator. *)
Definition ev_keeps (k : bytes) (e : ievent) : Prop :=
  match e with EOp o => o_key o = k -> o_writable o = true -> forall x, o_proc o x <> ARemove | _ => True end.
(** [e] does not write [k] by an operation other than one through the iterator. *)
Definition ev_avoids (k : bytes) (e : ievent) : Prop :=
  match e with EOp o => o_key o = k -> o_writable o = false | _ => True end.

Definition vis_ok (d : hdb) (vis : list bytes) (it : hiter) : Prop :=
  it_ok d it /\ NoDup (all_vis vis it) /\ (forall k, In k vis -> below d it k).
Definition covers (d : hdb) (m : amap) (vis : list bytes) (it : hiter) (k : bytes) : Prop :=
  (below d it k /\ In k (all_vis vis it)) \/ (~ below d it k /\ m k <> None).
Definition avoids (m : amap) (vis : list bytes) (it : hiter) (k : bytes) : Prop :=
  ~ In k (all_vis vis it) /\ m k = None.

Lemma below_keys d it k : it_ok d it -> In k (it_keys it) -> below d it k.
Proof.
  unfold it_ok, below. destruct (it_bucket it); [|trivial]. intros [_ H] Hi. apply H; exact Hi.
Qed.

Lemma nodup_app {A} (l1 l2 : list A) : NoDup l1 -> NoDup l2 -> (forall x, In x l1 -> ~ In x l2) -> NoDup (l1 ++ l2).
Proof.
  induction 1 as [|x l1 Hx Hl IH]; intros H2 Hd; [exact H2|]. cbn [app]. constructor.
  - rewrite in_app_iff. intros [H|H]; [auto|]. exact (Hd x (or_introl eq_refl) H).
  - apply IH; auto. intros y Hy. apply Hd. right; exact Hy.
Qed.
Lemma nodup_app_inv {A} (l1 l2 : list A) : NoDup (l1 ++ l2) -> NoDup l1 /\ NoDup l2 /\ (forall x, In x l1 -> ~ In x l2).
Proof.
  induction l1 as [|x l1 IH]; cbn [app]; intros H; [repeat split; [constructor|exact H|intros y []]|].
  inversion H as [|? ? Hx Hl]; subst. destruct (IH Hl) as (A1 & A2 & A3). rewrite in_app_iff in Hx.
  repeat split; [constructor; tauto|exact A2|]. intros y [<-|Hy]; [tauto|auto].
Qed.

Lemma it_ok_sorted d it : it_ok d it -> bsorted (it_keys it).
Proof. unfold it_ok. destruct (it_bucket it); [intros [H _]; exact H|intros ->; constructor]. Qed.

(** Loading a bucket keeps the bookkeeping. *)
Lemma read_keys_step d s m it vis : hdb_ok d -> h_inv d s m -> vis_ok d vis it ->
  let it' := fst (read_keys d (s_file s) it) in
  vis_ok d vis it' /\ (forall k, covers d m vis it k -> covers d m vis it' k) /\ (forall k, avoids m vis it k -> avoids m vis it' k).
Proof.
  intros Hd Hi (Hok & Hn & Hb). assert (H := read_keys_spec d s m it Hd Hi Hok).
  destruct (read_keys d (s_file s) it) as [it' st]. cbn [fst]. destruct H as (H1 & H2 & H3 & H4 & H5).
  unfold all_vis in *. destruct (nodup_app_inv _ _ Hn) as (N1 & N2 & N3).
  split; [split; [exact H1|]; split|split].
  - apply nodup_app; [exact N1|apply bsorted_nodup, (it_ok_sorted d), H1|]. intros k Hv Hk. apply H3 in Hk.
    destruct Hk as [Hk|(Hk & _)]; [exact (N3 k Hv Hk)|exact (Hk (Hb k Hv))].
  - intros k Hv. apply H4, Hb, Hv.
  - intros k [[Hbl Hin]|[Hnb Hm]].
    + left. split; [apply H4; exact Hbl|]. unfold all_vis in *. rewrite in_app_iff in *. rewrite H3. tauto.
    + assert (Hdec : below d it' k \/ ~ below d it' k).
      { unfold below. destruct (it_bucket it') as [b|]; [|left; exact I]. destruct (N.lt_ge_cases (primary_hash k (d_nb d)) b); [left|right]; lia. }
      destruct Hdec as [Hd'|Hd']; [left|right; auto]. split; [exact Hd'|]. unfold all_vis. rewrite in_app_iff, H3. tauto.
  - intros k [Hni Hm]. split; [|exact Hm]. unfold all_vis in *. rewrite in_app_iff in *. rewrite H3. tauto.
Qed.

(** Passing the first key. *)
Lemma pass_step d m it vis k0 ks : vis_ok d vis it -> it_keys it = k0 :: ks ->
  let it' := mkhiter (it_bucket it) ks in
  vis_ok d (vis ++ [k0]) it' /\ passed it it' = [k0] /\
  (forall k, covers d m vis it k -> covers d m (vis ++ [k0]) it' k) /\ (forall k, avoids m vis it k -> avoids m (vis ++ [k0]) it' k).
Proof.
  intros (Hok & Hn & Hb) E it'. unfold all_vis in *. rewrite E in Hn.
  assert (Ea : forall b, (vis ++ [k0]) ++ it_keys (mkhiter b ks) = vis ++ it_keys it) by (intros b; rewrite E, <- app_assoc; reflexivity).
  assert (Ebl : forall k, below d it' k <-> below d it k) by (intros k; reflexivity).
  assert (Hs : bsorted (k0 :: ks)) by (rewrite <- E; eapply it_ok_sorted; eauto).
  split; [split; [|split]|split; [|split]].
  - unfold it_ok, it' in *. cbn [it_bucket it_keys]. destruct (it_bucket it); [|congruence].
    rewrite E in Hok. destruct Hok as [Hs' Hk]. inversion Hs'; subst. split; [assumption|]. intros k Hin. apply Hk. right; exact Hin.
  - unfold all_vis, it'. rewrite Ea, E. exact Hn.
  - intros k Hk. apply Ebl. rewrite in_app_iff in Hk. destruct Hk as [Hk|[<-|[]]]; [auto|]. apply below_keys; [exact Hok|]. rewrite E. left; reflexivity.
  - unfold passed, it'. rewrite E. cbn [it_keys]. destruct ks as [|k' ks]; [reflexivity|].
    inversion Hs as [|? ? _ Hf]; subst. inversion Hf as [|? ? Hlt _]; subst.
    destruct (beqb_spec k0 k') as [->|]; [destruct (blt_irrefl _ Hlt)|reflexivity].
  - intros k. unfold covers, all_vis, it'. rewrite Ea. tauto.
  - intros k. unfold avoids, all_vis, it'. rewrite Ea. tauto.
Qed.
Lemma passed_same it : passed it it = [].
Proof. unfold passed. destruct (it_keys it) as [|k ks]; [reflexivity|]. rewrite beqb_refl. reflexivity. Qed.

Lemma it_process_grows d s it proc w : fsize (s_file s) <= fsize (s_file (fst (fst (fst (it_process d s it proc w))))).
Proof.
  unfold it_process. destruct (read_keys d (s_file s) it) as [it' st]. destruct st; cbn [fst]; try lia.
  destruct (it_keys it') as [|key rest]; cbn [fst]; [lia|].
  set (wr := fun old : option bytes => _). assert (G := h_process_grows d s key wr true w).
  destruct (h_process d s key wr true w) as [s' hs [[v|]|]]; cbn [h_st h_status h_seen] in *; destruct hs; cbn [fst]; exact G.
Qed.
Lemma it_event_grows d s it e : fsize (s_file s) <= fsize (s_file (fst (fst (it_event d s it e)))).
Proof.
  destruct e as [o|proc w|]; cbn [it_event].
  - apply h_process_grows.
  - assert (G := it_process_grows d s it proc w). destruct (it_process d s it proc w) as [[[s' it'] st] out]. exact G.
  - cbn [fst]. lia.
Qed.

Lemma it_event_ok d s m it vis e : hdb_ok d -> h_inv d s m -> vis_ok d vis it -> ev_ok e ->
  let '(s', it', p) := it_event d s it e in
  fsize (s_file s') <= capacity d ->
  exists m', h_inv d s' m' /\ vis_ok d (vis ++ p) it' /\
    (forall k, ev_keeps k e -> covers d m vis it k -> covers d m' (vis ++ p) it' k) /\
    (forall k, ev_avoids k e -> avoids m vis it k -> avoids m' (vis ++ p) it' k).
Proof.
  intros Hd Hi Hv He. destruct e as [o|proc w|]; cbn [it_event].
  - intros Hc. destruct He as [He1 He2].
    destruct (h_step d s m (o_key o) (o_proc o) (o_readable o) (o_writable o) Hd Hi He1 (He2 _) Hc) as (_ & _ & _ & H4).
    eexists. split; [exact H4|]. rewrite app_nil_r. split; [exact Hv|]. cbn [ev_keeps ev_avoids].
    assert (Hoth : forall k a, k <> o_key o -> map_apply m (o_key o) a (o_writable o) k = m k).
    { intros k a Hk. unfold map_apply. destruct (o_writable o); [|reflexivity].
      destruct a; [reflexivity|apply adel_neq; congruence|apply aset_neq; congruence]. }
    split; intros k Hk Hcv.
    + destruct Hcv as [Hcv|[Hb Hm]]; [left; exact Hcv|right; split; [exact Hb|]].
      destruct (bytes_eq_dec k (o_key o)) as [->|Nk]; [|rewrite Hoth; assumption].
      unfold map_apply. destruct (o_writable o); [|exact Hm]. specialize (Hk eq_refl eq_refl (map_seen m (o_key o) (o_readable o))).
      destruct (o_proc o (map_seen m (o_key o) (o_readable o))); [exact Hm|congruence|rewrite aset_eq; discriminate].
    + destruct Hcv as [Hn Hm]. split; [exact Hn|].
      destruct (bytes_eq_dec k (o_key o)) as [->|Nk]; [|rewrite Hoth; assumption].
      rewrite (Hk eq_refl). exact Hm.
  - assert (Hrs := read_keys_step d s m it vis Hd Hi Hv). cbn [ev_ok] in He.
    assert (Hsp := read_keys_spec d s m it Hd Hi (proj1 Hv)).
    unfold it_process. destruct (read_keys d (s_file s) it) as [it1 st]. cbn [fst] in *.
    destruct Hrs as (R1 & R2 & R3). destruct Hsp as (S1 & S2 & _).
    assert (Same : forall s', fsize (s_file s) <= capacity d -> s' = s -> exists m', h_inv d s' m' /\ vis_ok d (vis ++ passed it1 it1) it1 /\
      (forall k, True -> covers d m vis it k -> covers d m' (vis ++ passed it1 it1) it1 k) /\
      (forall k, True -> avoids m vis it k -> avoids m' (vis ++ passed it1 it1) it1 k)).
    { intros s' _ ->. exists m. rewrite passed_same, app_nil_r. auto. }
    destruct S2 as [(-> & S2 & S3)|(-> & S2 & S3)].
    2:{ intros Hc. apply Same; auto. }
    destruct (it_keys it1) as [|key rest] eqn:Ek; [congruence|].
    set (wr := fun old : option bytes => match old with Some _ => proc key old | None => ANoop end).
    assert (Kok : key_ok key).
    { unfold it_ok in S1. rewrite Ek in S1. destruct (it_bucket it1); [|congruence]. apply S1. left; reflexivity. }
    assert (Aok : action_ok (wr (map_seen m key true))).
    { unfold wr. destruct (map_seen m key true) as [v|]; [apply He|exact I]. }
    assert (Hst := h_step d s m key wr true w Hd Hi Kok Aok). cbv zeta in Hst.
    destruct (h_process d s key wr true w) as [s' hs sn] eqn:Ep. cbn [h_st h_status h_seen] in *.
    assert (Oth : forall k, k <> key -> map_apply m key (wr (map_seen m key true)) w k = m k).
    { intros k Hk. unfold map_apply. destruct w; [|reflexivity].
      destruct (wr (map_seen m key true)); [reflexivity|apply adel_neq; congruence|apply aset_neq; congruence]. }
    assert (InK : In key (it_keys it1)) by (rewrite Ek; left; reflexivity).
    assert (Keep : h_inv d s' (map_apply m key (wr (map_seen m key true)) w) -> exists m', h_inv d s' m' /\ vis_ok d (vis ++ passed it1 it1) it1 /\
      (forall k, True -> covers d m vis it k -> covers d m' (vis ++ passed it1 it1) it1 k) /\
      (forall k, True -> avoids m vis it k -> avoids m' (vis ++ passed it1 it1) it1 k)).
    { intros E4. eexists. split; [exact E4|]. rewrite passed_same, app_nil_r. split; [exact R1|]. split; intros k _ Hcv.
      - apply R2 in Hcv. destruct Hcv as [Hcv|[Hb Hm]]; [left; exact Hcv|right; split; [exact Hb|]].
        rewrite Oth; [exact Hm|]. intros ->. apply Hb. apply below_keys; assumption.
      - apply R3 in Hcv. destruct Hcv as [Hn Hm]. split; [exact Hn|]. rewrite Oth; [exact Hm|]. intros ->. apply Hn.
        unfold all_vis. rewrite in_app_iff. right; exact InK. }
    destruct hs; try (destruct sn as [[?|]|]; intros Hc; destruct (Hst Hc) as (C & _); discriminate).
    destruct sn as [sn|]; [|intros Hc; destruct (Hst Hc) as (_ & C & _); discriminate].
    destruct sn as [v|]; intros Hc; destruct (Hst Hc) as (_ & E2 & _ & E4); [|exact (Keep E4)].
    destruct (proc key (Some v)) as [| |v'] eqn:Epr; try exact (Keep E4).
    destruct (pass_step d m it1 vis key rest R1 Ek) as (P1 & P2 & P3 & P4). rewrite P2.
    eexists. split; [exact E4|]. split; [exact P1|]. split; intros k _ Hcv.
    + apply R2 in Hcv. apply P3 in Hcv. destruct Hcv as [Hcv|[Hb Hm]]; [left; exact Hcv|right; split; [exact Hb|]].
      rewrite Oth; [exact Hm|]. intros ->. apply Hb. exact (below_keys d it1 key S1 InK).
    + apply R3 in Hcv. assert (Hcv' := Hcv). apply P4 in Hcv. destruct Hcv as [Hn Hm]. split; [exact Hn|]. rewrite Oth; [exact Hm|]. intros ->.
      apply (proj1 Hcv'). unfold all_vis. rewrite in_app_iff. right; exact InK.
  - assert (Hrs := read_keys_step d s m it vis Hd Hi Hv).
    assert (Hsp := read_keys_spec d s m it Hd Hi (proj1 Hv)).
    unfold it_next. destruct (read_keys d (s_file s) it) as [it1 st]. cbn [fst] in *. intros Hc.
    destruct Hrs as (R1 & R2 & R3). destruct Hsp as (S1 & S2 & _). exists m. split; [exact Hi|].
    destruct S2 as [(-> & S2 & S3)|(-> & S2 & S3)]; cbn [fst].
    + destruct (it_keys it1) as [|key rest] eqn:Ek; [congruence|]. cbn [tl].
      destruct (pass_step d m it1 vis key rest R1 Ek) as (P1 & P2 & P3 & P4). rewrite P2. split; [exact P1|]. split; auto.
    + rewrite passed_same, app_nil_r. split; [exact R1|]. split; auto.
Qed.

Lemma it_run_grows d es : forall s it, fsize (s_file s) <= fsize (s_file (fst (fst (it_run d s it es)))).
Proof.
  induction es as [|e es IH]; intros s it; cbn [it_run]; [cbn; lia|].
  assert (G := it_event_grows d s it e). destruct (it_event d s it e) as [[s1 it1] p1].
  specialize (IH s1 it1). destruct (it_run d s1 it1 es) as [[s2 it2] p2]. cbn [fst] in *. lia.
Qed.

Lemma it_run_ok d es : forall s m it vis, hdb_ok d -> h_inv d s m -> vis_ok d vis it -> Forall ev_ok es ->
  let '(s', it', p) := it_run d s it es in
  fsize (s_file s') <= capacity d ->
  exists m', h_inv d s' m' /\ vis_ok d (vis ++ p) it' /\
    (forall k, Forall (ev_keeps k) es -> covers d m vis it k -> covers d m' (vis ++ p) it' k) /\
    (forall k, Forall (ev_avoids k) es -> avoids m vis it k -> avoids m' (vis ++ p) it' k).
Proof.
  induction es as [|e es IH]; intros s m it vis Hd Hi Hv He; cbn [it_run].
  - intros _. exists m. rewrite app_nil_r. auto.
  - inversion He as [|? ? He1 He2]; subst. assert (H := it_event_ok d s m it vis e Hd Hi Hv He1).
    destruct (it_event d s it e) as [[s1 it1] p1]. assert (G := it_run_grows d es s1 it1).
    assert (IH' := fun m1 => IH s1 m1 it1 (vis ++ p1)). clear IH.
    destruct (it_run d s1 it1 es) as [[s2 it2] p2]. cbn [fst] in G. intros Hc.
    destruct (H ltac:(lia)) as (m1 & A1 & A2 & A3 & A4).
    destruct (IH' m1 Hd A1 A2 He2 Hc) as (m2 & B1 & B2 & B3 & B4).
    rewrite app_assoc. exists m2. split; [exact B1|]. split; [exact B2|]. split; intros k Hk Hcv.
    + inversion Hk; subst. auto.
    + inversion Hk; subst. auto.
Qed.

(** * Scanning without updates *)
Lemma it_get_spec d s m it : hdb_ok d -> h_inv d s m -> fsize (s_file s) <= capacity d -> it_ok d it ->
  (forall k, In k (it_keys it) -> m k <> None) ->
  let '(it', st, out) := it_get d s it in
  it' = fst (read_keys d (s_file s) it) /\
  match it_keys it' with
  | [] => st = INotFound /\ out = None /\ it_bucket it' = None
  | k :: _ => exists v, m k = Some v /\ st = IOk /\ out = Some (k, Some v) /\ snd (read_keys d (s_file s) it) = IOk
  end.
Proof.
  intros Hd Hi Hc Hok Hlive. unfold it_get, it_process.
  assert (Hsp := read_keys_spec d s m it Hd Hi Hok).
  destruct (read_keys d (s_file s) it) as [it1 st]. destruct Hsp as (S1 & S2 & S3 & _). cbn [fst snd].
  destruct S2 as [(-> & S2 & S2')|(-> & S2 & S2')].
  2:{ split; [reflexivity|]. rewrite S2. auto. }
  destruct (it_keys it1) as [|key rest] eqn:Ek; [congruence|].
  assert (Kin : In key (key :: rest)) by (left; reflexivity).
  assert (Kl : m key <> None).
  { apply S3 in Kin. destruct Kin as [Hk|(_ & _ & Hk)]; auto. }
  assert (Hg := h_get_spec d s m key Hd Hi (live_key_ok d s m key Hd Hi Kl) Hc).
  assert (Eg : h_process d s key (fun old : option bytes => match old with Some _ => ANoop | None => ANoop end) true false = h_get d s key).
  { unfold h_get, h_process, proc_get. destruct (get_bucket _ _ _); [|reflexivity]. destruct (walk _ _ _ _ _ _ _); try reflexivity.
    destruct (if is_set_type (m_type m0) then _ else _) as [[o|]|]; reflexivity. }
  rewrite Eg, Hg. cbn [h_status h_seen h_st]. destruct (m key) as [v|] eqn:Em; [|congruence].
  split; [reflexivity|]. rewrite Ek. exists v. auto.
Qed.

Definition pending (d : hdb) (m : amap) (it : hiter) (k : bytes) : Prop :=
  In k (it_keys it) \/ (~ below d it k /\ m k <> None).

Lemma it_scan_ok d s m : hdb_ok d -> h_inv d s m -> fsize (s_file s) <= capacity d ->
  forall n it U, it_ok d it -> (forall k, In k (it_keys it) -> m k <> None) ->
  NoDup U -> length U = n -> (forall k, In k U <-> pending d m it k) ->
  exists kvs it', it_scan n d s it = (it', map (fun kv => (IOk, Some (fst kv, Some (snd kv)))) kvs) /\
    Permutation (map fst kvs) U /\ (forall k v, In (k, v) kvs -> m k = Some v) /\ it_ok d it' /\
    (forall k, ~ pending d m it' k).
Proof.
  intros Hd Hi Hc. induction n as [|n IH]; intros it U Hok Hlive HU Hn HP; cbn [it_scan].
  - destruct U; [|discriminate]. exists [], it. split; [reflexivity|]. split; [constructor|]. split; [intros k v []|]. split; [exact Hok|].
    intros k Hk. destruct (proj2 (HP k) Hk).
  - assert (Hg := it_get_spec d s m it Hd Hi Hc Hok Hlive).
    assert (Hsp := read_keys_spec d s m it Hd Hi Hok).
    destruct (it_get d s it) as [[it1 st] out]. destruct Hg as [E1 Hg].
    destruct (read_keys d (s_file s) it) as [itr str]. cbn [fst snd] in *. subst itr.
    destruct Hsp as (S1 & S2 & S3 & S4 & S5).
    assert (HP1 : forall k, pending d m it1 k <-> pending d m it k).
    { intros k. unfold pending. rewrite S3. split.
      - intros [[H|(A & B & C)]|(A & B)]; [left; exact H|right; auto|right; split; [|exact B]]. intros Hb. exact (A (S4 k Hb)).
      - intros [H|(A & B)]; [left; left; exact H|].
        assert (Hdec : below d it1 k \/ ~ below d it1 k).
        { unfold below. destruct (it_bucket it1) as [b|]; [|left; exact I]. destruct (N.lt_ge_cases (primary_hash k (d_nb d)) b); [left|right]; lia. }
        destruct Hdec; [left; right; auto|right; auto]. }
    destruct (it_keys it1) as [|key rest] eqn:Ek.
    { exfalso. destruct U as [|u U]; [discriminate|]. assert (Hp := proj1 (HP u) (or_introl eq_refl)).
      apply HP1 in Hp. destruct Hg as (_ & _ & Hb). unfold pending, below in Hp. rewrite Hb, Ek in Hp.
      destruct Hp as [[]|[Hp _]]. exact (Hp I). }
    destruct Hg as (v & Em & -> & -> & ->).
    assert (En : it_next d (s_file s) it1 = (mkhiter (it_bucket it1) rest, IOk)).
    { unfold it_next, read_keys. rewrite Ek. destruct S2 as [(_ & _ & S2)|(C & _)]; [|discriminate].
      destruct (it_bucket it1) eqn:Eb1; [|congruence]. rewrite Ek, Eb1. reflexivity. }
    rewrite En.
    assert (Hsort := it_ok_sorted d it1 S1). rewrite Ek in Hsort. assert (Hnd := bsorted_nodup _ Hsort). inversion Hnd as [|? ? Hk0 Hnd']; subst.
    assert (HinU : In key U) by (apply HP, HP1; left; rewrite Ek; left; reflexivity).
    destruct (in_split _ _ HinU) as (U1 & U2 & ->).
    assert (HU' := NoDup_remove_1 _ _ _ HU). assert (HkU := NoDup_remove_2 _ _ _ HU).
    assert (Hbk : below d it1 key) by (apply below_keys; [exact S1|rewrite Ek; left; reflexivity]).
    destruct (IH (mkhiter (it_bucket it1) rest) (U1 ++ U2)) as (kvs & it' & K1 & K2 & K3 & K4 & K5).
    + unfold it_ok in *. cbn [it_bucket it_keys]. rewrite Ek in S1. destruct (it_bucket it1); [|congruence].
      destruct S1 as [Sx Sy]. inversion Sx; subst. split; [assumption|]. intros k Hk. apply Sy. right; exact Hk.
    + intros k Hk. cbn [it_keys] in Hk. assert (Hk' : In k (key :: rest)) by (right; exact Hk). apply S3 in Hk'.
      destruct Hk' as [Hk'|(_ & _ & Hk')]; auto.
    + exact HU'.
    + rewrite app_length in *. cbn [length] in Hn. lia.
    + intros k. assert (Hkk := HP k). rewrite <- HP1 in Hkk. unfold pending in Hkk |- *. rewrite Ek in Hkk.
      change (below d (mkhiter (it_bucket it1) rest) k) with (below d it1 k). cbn [it_keys].
      rewrite in_app_iff in Hkk, HkU |- *. cbn [In] in Hkk. clear - Hkk HkU Hk0 Hbk. split.
      * intros Hk. assert (key <> k) by (intros ->; tauto). tauto.
      * intros [Hk|[Hk1 Hk2]].
        -- assert (key <> k) by (intros ->; tauto). tauto.
        -- assert (key <> k) by (intros ->; tauto). tauto.
    + rewrite K1. exists ((key, v) :: kvs), it'. split; [reflexivity|]. split; [|split; [|split; assumption]].
      * cbn [map fst]. apply Permutation_cons_app. exact K2.
      * intros k v0 [E|Hin]; [injection E as <- <-; exact Em|auto].
Qed.

Lemma drop_to_spec k l : match drop_to k l with Some r => exists l1 l2, l = l1 ++ l2 /\ r = l2 /\ exists l3, l2 = k :: l3 | None => ~ In k l end.
Proof.
  induction l as [|x l IH]; cbn [drop_to]; [intros []|]. destruct (beqb_spec k x) as [->|Nx].
  - exists [], (x :: l). repeat split. exists l. reflexivity.
  - destruct (drop_to k l) as [r|].
    + destruct IH as (l1 & l2 & -> & -> & l3 & ->). exists (x :: l1), (k :: l3). repeat split. exists l3. reflexivity.
    + cbn [In]. intuition congruence.
Qed.
