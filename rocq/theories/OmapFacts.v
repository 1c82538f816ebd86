(** Consequences of the ordered-map specification: it is a finite map, and scanning it visits every record in order. *)
From Coq Require Import List NArith ZArith Bool Lia Arith Sorting.Sorted.
Import ListNotations.
From Verif Require Import Bytes BytesOrder DbmModel StatusModel OmapSpec OmapHist.

Section Facts.
  Variable cmp : bytes -> bytes -> comparison.
  Hypothesis cmp_opp : forall a b, cmp b a = CompOpp (cmp a b).
  Hypothesis cmp_le_trans : forall a b c, cmp a b <> Gt -> cmp b c <> Gt -> cmp a c <> Gt.
  (** Keys that compare equal are one key. *)
  Definition eqk (a b : bytes) : bool := match cmp a b with Eq => true | _ => false end.
  Definition o_view (L : omap) (k : bytes) : option bytes := option_map snd (o_find cmp k L).

  Lemma cmp_same : forall a, cmp a a = Eq.
  Proof. intros a. pose proof (cmp_opp a a) as H. destruct (cmp a a); cbn in H; congruence. Qed.
  Lemma lt_trans_ : forall a b c, cmp a b = Lt -> cmp b c = Lt -> cmp a c = Lt.
  Proof.
    intros a b c H1 H2. destruct (cmp a c) eqn:E; auto; exfalso.
    - apply (cmp_le_trans c a b); [rewrite cmp_opp, E; discriminate|rewrite H1; discriminate|rewrite cmp_opp, H2; reflexivity].
    - apply (cmp_le_trans a b c); congruence.
  Qed.
  Lemma eq_cmp : forall a b c, cmp a b = Eq -> cmp a c = cmp b c.
  Proof.
    intros a b c H. assert (H' : cmp b a = Eq) by (rewrite cmp_opp, H; reflexivity).
    destruct (cmp a c) eqn:E1, (cmp b c) eqn:E2; auto; exfalso.
    - apply (cmp_le_trans c a b); [rewrite cmp_opp, E1; discriminate|congruence|rewrite cmp_opp, E2; reflexivity].
    - apply (cmp_le_trans b a c); congruence.
    - apply (cmp_le_trans c b a); [rewrite cmp_opp, E2; discriminate|congruence|rewrite cmp_opp, E1; reflexivity].
    - apply (cmp_le_trans b a c); congruence.
    - apply (cmp_le_trans a b c); congruence.
    - apply (cmp_le_trans a b c); congruence.
  Qed.
  Lemma find_lt_all : forall k L, Forall (fun r => cmp k (fst r) = Lt) L -> o_find cmp k L = None.
  Proof. intros k L H. induction H as [|[k1 v1] L H1 H IH]; cbn; auto. cbn in H1. now rewrite H1. Qed.

  (** Storing and removing, seen through lookups. *)
  Lemma view_put : forall L k v k', ascending cmp L -> o_view (o_put cmp k v L) k' = if eqk k k' then Some v else o_view L k'.
  Proof.
    intros L k v k' H. unfold o_view. induction H as [|[k1 v1] L Hs IH Hf]; cbn [o_put].
    - cbn. unfold eqk. rewrite (cmp_opp k k'). destruct (cmp k k'); reflexivity.
    - destruct (cmp k k1) eqn:E; cbn [o_find].
      + unfold eqk. rewrite (eq_cmp _ _ k' E). rewrite (cmp_opp k1 k'). destruct (cmp k1 k'); reflexivity.
      + unfold eqk. rewrite (cmp_opp k k'). destruct (cmp k k') eqn:E2; cbn; reflexivity.
      + destruct (cmp k' k1) eqn:E2; [|exact IH|exact IH]. unfold eqk. rewrite (cmp_opp k' k), (eq_cmp _ _ k E2), (cmp_opp k k1), E. reflexivity.
  Qed.
  Lemma view_del : forall L k k', ascending cmp L -> o_view (o_del cmp k L) k' = if eqk k k' then None else o_view L k'.
  Proof.
    intros L k k' H. unfold o_view. induction H as [|[k1 v1] L Hs IH Hf]; cbn [o_del].
    - cbn. destruct (eqk k k'); reflexivity.
    - destruct (cmp k k1) eqn:E; cbn [o_find].
      + unfold eqk. rewrite (eq_cmp _ _ k' E). rewrite (cmp_opp k1 k'). destruct (cmp k1 k') eqn:E2; cbn; auto.
        assert (cmp k' k1 = Eq) as E3 by (rewrite cmp_opp, E2; auto). rewrite find_lt_all; auto. eapply Forall_impl; [|exact Hf]. intros r Hr. cbn in Hr. now rewrite (eq_cmp _ _ _ E3).
      + destruct (cmp k' k1) eqn:E2; [|exact IH|exact IH]. unfold eqk. rewrite (cmp_opp k' k), (eq_cmp _ _ k E2), (cmp_opp k k1), E. reflexivity.
      + destruct (cmp k' k1) eqn:E2; [|exact IH|exact IH]. unfold eqk. rewrite (cmp_opp k' k), (eq_cmp _ _ k E2), (cmp_opp k k1), E. reflexivity.
  Qed.
  Lemma put_asc : forall L k v, ascending cmp L -> ascending cmp (o_put cmp k v L).
  Proof.
    intros L k v H. assert (HB : forall b L, cmp b k = Lt -> Forall (fun r : bytes * bytes => cmp b (fst r) = Lt) L -> Forall (fun r : bytes * bytes => cmp b (fst r) = Lt) (o_put cmp k v L)).
    { intros b L0 Hb F. induction F as [|[k1 v1] L0 F1 F IH]; cbn; auto. destruct (cmp k k1); auto. }
    induction H as [|[k1 v1] L Hs IH Hf]; cbn [o_put]; [repeat constructor|]. destruct (cmp k k1) eqn:E.
    - constructor; auto.
    - constructor; [constructor; auto|]. constructor; auto. eapply Forall_impl; [|exact Hf]. intros r Hr. cbn in *. eapply lt_trans_; eauto.
    - constructor; auto. apply HB; auto. cbn. now rewrite cmp_opp, E.
  Qed.
  Lemma del_asc : forall L k, ascending cmp L -> ascending cmp (o_del cmp k L).
  Proof.
    intros L k H. assert (HB : forall P L, Forall P L -> Forall P (o_del cmp k L)). { intros P L0 F. induction F as [|[k1 v1] L0 F1 F IH]; cbn; auto. destruct (cmp k k1); auto. }
    induction H as [|[k1 v1] L Hs IH Hf]; cbn [o_del]; [constructor|]. destruct (cmp k k1) eqn:E; auto; constructor; auto; apply HB; auto.
  Qed.
  Lemma process_asc : forall S L k (p : proc S) w s, ascending cmp L -> ascending cmp (fst (o_process cmp L k p w s)).
  Proof.
    intros S L k p w s H. unfold o_process. destruct (o_call cmp L k p s) as [a s']. cbn. destruct w; auto. destruct a; [exact H| |]; destruct (o_find cmp k L); cbn; auto using put_asc, del_asc.
  Qed.
  Lemma multi_asc : forall S (l : list (bytes * proc S)) L w s, ascending cmp L -> ascending cmp (fst (o_multi cmp L l w s)).
  Proof.
    intros S l. induction l as [|[k p] l IH]; intros L w s H; cbn; auto. pose proof (process_asc S L k p w s H) as W. destruct (o_process cmp L k p w s) as [L' s']. cbn in W. auto.
  Qed.

  (** * As a map from byte strings, when no two different keys compare equal *)
  Section Map.
    Hypothesis cmp_eq : forall a b, cmp a b = Eq -> a = b.
    Lemma eqk_beqb : forall a b, eqk a b = beqb a b.
    Proof. intros a b. unfold eqk. destruct (beqb_spec a b) as [->|N]; [now rewrite cmp_same|]. destruct (cmp a b) eqn:E; auto. exfalso. auto. Qed.
    Lemma find_key : forall L k k1 v, o_find cmp k L = Some (k1, v) -> k1 = k.
    Proof. induction L as [|[k0 v0] L IH]; cbn; intros k k1 v H; [discriminate|]. destruct (cmp k k0) eqn:E; eauto. inversion H; subst. symmetry. auto. Qed.
    Lemma process_map : forall S L k (p : proc S) w s, ascending cmp L ->
      same_map (o_view (fst (o_process cmp L k p w s))) (fst (ref_process (o_view L) k p w s)) /\ snd (o_process cmp L k p w s) = snd (ref_process (o_view L) k p w s).
    Proof.
      intros S L k p w s H. unfold o_process, ref_process. assert (C : o_call cmp L k p s = call (o_view L) k p s).
      { unfold o_call, call, o_view. destruct (o_find cmp k L) as [[k1 v]|] eqn:E; cbn; auto. apply find_key in E. now subst. }
      rewrite C. destruct (call (o_view L) k p s) as [a s']. cbn. split; auto. intros k'. destruct w; [|reflexivity]. unfold act.
      assert (D : o_view (o_del cmp k L) k' = adel (o_view L) k k') by (rewrite view_del by exact H; unfold adel; now rewrite eqk_beqb).
      assert (P : forall v, o_view (o_put cmp k v L) k' = aset (o_view L) k v k') by (intros v; rewrite view_put by exact H; unfold aset; now rewrite eqk_beqb).
      destruct a as [| |v]; cbn; [destruct (o_find cmp k L); reflexivity| |destruct (o_find cmp k L); apply P].
      destruct (o_find cmp k L) eqn:E; [exact D|]. unfold adel. destruct (beqb_spec k k') as [->|N]; [unfold o_view; now rewrite E|reflexivity].
    Qed.
    (** [call] at an equivalent map. *)
    Lemma multi_map : forall S (l : list (bytes * proc S)) L m w s, ascending cmp L -> same_map (o_view L) m ->
      same_map (o_view (fst (o_multi cmp L l w s))) (fst (ref_multi m l w s)) /\ snd (o_multi cmp L l w s) = snd (ref_multi m l w s).
    Proof.
      intros S l. induction l as [|[k p] l IH]; intros L m w s H E; cbn; auto.
      destruct (process_map S L k p w s H) as [P1 P2]. pose proof (process_asc S L k p w s H) as P3.
      assert (R : same_map (fst (ref_process (o_view L) k p w s)) (fst (ref_process m k p w s)) /\ snd (ref_process (o_view L) k p w s) = snd (ref_process m k p w s)).
      { unfold ref_process, call. rewrite E. destruct (m k) as [v|]; [destruct (on_full p k v s) as [a s1]|destruct (on_empty p k s) as [a s1]]; cbn; (split; auto; intros k'; destruct w; auto; destruct a; cbn; auto; unfold adel, aset; now rewrite E). }
      destruct R as [R1 R2]. destruct (o_process cmp L k p w s) as [L' s']. destruct (ref_process m k p w s) as [m' s'']. cbn in *. assert (s' = s'') as -> by congruence. apply IH; auto. intros k'. now rewrite P1.
    Qed.
    Lemma view_count : forall L, ascending cmp L -> acount (o_view L) (length L).
    Proof.
      intros L H. exists (map fst L). split; [|split; [apply map_length|]].
      - induction H as [|[k v] L Hs IH Hf]; cbn; constructor; auto. intros Hi. apply in_map_iff in Hi. destruct Hi as ([k1 v1] & E & Hi). cbn in E. subst. rewrite Forall_forall in Hf. specialize (Hf _ Hi). cbn in Hf. rewrite cmp_same in Hf. discriminate.
      - intros k. unfold o_view. induction H as [|[k1 v] L Hs IH Hf]; cbn; [split; intros W; [destruct W|now destruct W]|].
        destruct (cmp k k1) eqn:E; cbn.
        + split; intros _; [discriminate|left]. symmetry. auto.
        + rewrite <- IH. split; [intros [<-|W]; [rewrite cmp_same in E; discriminate|exact W]|auto].
        + rewrite <- IH. split; [intros [<-|W]; [rewrite cmp_same in E; discriminate|exact W]|auto].
    Qed.
  End Map.

  (** * Neighbours *)
  Lemma SS_mid : forall (A : omap) k v B, ascending cmp (A ++ (k, v) :: B) -> Forall (fun r => cmp (fst r) k = Lt) A /\ Forall (fun r => cmp k (fst r) = Lt) B.
  Proof.
    intros A k v B H. induction A as [|a A IH]; cbn in H; inversion H; subst.
    - split; auto. - destruct (IH H2) as [I1 I2]. split; auto. constructor; auto. rewrite Forall_forall in H3. apply (H3 (k, v)). apply in_or_app. right. left. auto.
  Qed.
  Lemma less_all : forall (f : bytes * bytes -> bool) A, Forall (fun r => f r = false) A -> forall B, find f (A ++ B) = find f B.
  Proof. intros f A H B. induction H as [|a A H1 H IH]; cbn; auto. now rewrite H1. Qed.
  Lemma gt_mid : forall A k v B, ascending cmp (A ++ (k, v) :: B) -> o_gt cmp k (A ++ (k, v) :: B) = hd_error B.
  Proof.
    intros A k v B H. destruct (SS_mid _ _ _ _ H) as [HA HB]. unfold o_gt. rewrite less_all.
    - cbn. unfold less at 1. rewrite cmp_same. destruct B as [|b B]; auto. cbn. inversion HB; subst. unfold less. now rewrite H2.
    - eapply Forall_impl; [|exact HA]. intros r Hr. unfold less. rewrite cmp_opp. cbn in Hr. now rewrite Hr.
  Qed.
  Lemma ge_mid : forall A k v B, ascending cmp (A ++ (k, v) :: B) -> o_ge cmp k (A ++ (k, v) :: B) = Some (k, v).
  Proof.
    intros A k v B H. destruct (SS_mid _ _ _ _ H) as [HA HB]. unfold o_ge. rewrite less_all.
    - cbn. unfold less at 1. rewrite cmp_same. auto.
    - eapply Forall_impl; [|exact HA]. intros r Hr. unfold less. cbn in Hr. now rewrite Hr.
  Qed.
  Lemma find_mid : forall A k v B, ascending cmp (A ++ (k, v) :: B) -> o_find cmp k (A ++ (k, v) :: B) = Some (k, v).
  Proof.
    intros A k v B H. destruct (SS_mid _ _ _ _ H) as [HA HB]. rewrite (o_find_app cmp cmp_opp) by exact HA. cbn. now rewrite cmp_same.
  Qed.
  Lemma lt_mid : forall A k v B, ascending cmp (A ++ (k, v) :: B) -> o_lt cmp k (A ++ (k, v) :: B) = hd_error (rev A).
  Proof.
    intros A k v B H. destruct (SS_mid _ _ _ _ H) as [HA HB]. unfold o_lt. rewrite rev_app_distr. cbn [rev]. rewrite <- app_assoc. cbn [app]. rewrite less_all.
    - cbn. unfold less at 1. rewrite cmp_same. assert (HA' : Forall (fun r => cmp (fst r) k = Lt) (rev A)) by (apply Forall_rev; exact HA). destruct HA' as [|a A' Ha _]; auto. cbn. unfold less. now rewrite Ha.
    - apply Forall_rev. eapply Forall_impl; [|exact HB]. intros r Hr. unfold less. rewrite cmp_opp. cbn in Hr. now rewrite Hr.
  Qed.

  (** * Scans: read the record at the iterator, then move, as often as there are records. *)
  Definition collect : proc (list (bytes * bytes)) := mkProc (fun k v s => (ANoop, s ++ [(k, v)])) (fun _ s => (ANoop, s)).
  Definition visit (j : nat) (mv : ocall (list (bytes * bytes))) : list (ocall (list (bytes * bytes))) := [KItProcess j collect false; mv].
  Definition scan_up (n j : nat) : list (ocall (list (bytes * bytes))) := KItFirst j :: concat (repeat (visit j (KItNext j)) n).
  Definition scan_down (n j : nat) : list (ocall (list (bytes * bytes))) := KItLast j :: concat (repeat (visit j (KItPrev j)) n).

  Lemma at_process : forall A k v B o st cd o' st' j, ascending cmp (A ++ (k, v) :: B) -> o_recs o = A ++ (k, v) :: B -> o_pos o j = Some k ->
    ostep cmp _ (KItProcess j collect false) o st cd o' st' -> st' = st ++ [(k, v)] /\ o_recs o' = o_recs o /\ o_pos o' j = Some k.
  Proof.
    intros A k v B o st cd o' st' j H E P W. cbn [ostep] in W. rewrite P, E, (ge_mid _ _ _ _ H) in W. destruct W as (M & _ & W1 & W2). unfold o_process, o_call in W1, W2. rewrite (find_mid _ _ _ _ H) in W1, W2. cbn in W1, W2. rewrite E, W1, W2. repeat split; auto.
    rewrite (M j), Nat.eqb_refl. reflexivity.
  Qed.
  Lemma up_from : forall B A o st cds o' st' j, ascending cmp (A ++ B) -> o_recs o = A ++ B -> o_pos o j = at_key (hd_error B) ->
    oruns cmp _ (concat (repeat (visit j (KItNext j)) (length B))) o st cds o' st' -> st' = st ++ B /\ o_recs o' = A ++ B /\ o_pos o' j = None.
  Proof.
    induction B as [|[k v] B IH]; intros A o st cds o' st' j H E P W; cbn in W.
    - inversion W; subst. cbn in P. rewrite !app_nil_r in *. auto.
    - inversion W as [|c cs o0 s0 cd o1 st1 cds1 o2 st2 W1 W2]; subst. inversion W2 as [|c cs o0 s0 cd2 o3 st3 cds3 o4 st4 W3 W4]; subst. cbn in P.
      destruct (at_process _ _ _ _ _ _ _ _ _ _ H E P W1) as (-> & E1 & P1). cbn [ostep] in W3. destruct W3 as (E3 & -> & W3). rewrite P1 in W3. destruct W3 as [_ M]. specialize (M j). rewrite Nat.eqb_refl, E1, E, (gt_mid _ _ _ _ H) in M.
      assert (Ea : A ++ (k, v) :: B = (A ++ [(k, v)]) ++ B) by (rewrite <- app_assoc; reflexivity). rewrite Ea in H, E |- *.
      destruct (IH (A ++ [(k, v)]) o3 (st ++ [(k, v)]) cds3 o' st' j H) as (I1 & I2 & I3); auto; [congruence|]. rewrite I1, <- app_assoc. auto.
  Qed.
  Lemma scan_up_all : forall o st cds o' st' j, ascending cmp (o_recs o) -> oruns cmp _ (scan_up (length (o_recs o)) j) o st cds o' st' -> st' = st ++ o_recs o /\ o_recs o' = o_recs o /\ o_pos o' j = None.
  Proof.
    intros o st cds o' st' j H W. inversion W as [|c cs o0 s0 cd o1 st1 cds1 o2 st2 W1 W2]; subst. cbn [ostep] in W1. destruct W1 as (_ & E & -> & M). specialize (M j). rewrite Nat.eqb_refl in M.
    apply (up_from (o_recs o) [] o1 st cds1 o' st' j); auto.
  Qed.
  Lemma down_from : forall A B o st cds o' st' j, ascending cmp (A ++ B) -> o_recs o = A ++ B -> o_pos o j = at_key (hd_error (rev A)) ->
    oruns cmp _ (concat (repeat (visit j (KItPrev j)) (length A))) o st cds o' st' -> st' = st ++ rev A /\ o_recs o' = A ++ B /\ o_pos o' j = None.
  Proof.
    induction A as [|[k v] A IH] using rev_ind; intros B o st cds o' st' j H E P W.
    - inversion W; subst. cbn in *. rewrite !app_nil_r in *. auto.
    - rewrite app_length, Nat.add_comm in W. cbn in W. rewrite rev_app_distr in *. cbn in P. rewrite <- app_assoc in H, E |- *. cbn [app] in H, E |- *.
      inversion W as [|c cs o0 s0 cd o1 st1 cds1 o2 st2 W1 W2]; subst. inversion W2 as [|c cs o0 s0 cd2 o3 st3 cds3 o4 st4 W3 W4]; subst.
      destruct (at_process _ _ _ _ _ _ _ _ _ _ H E P W1) as (-> & E1 & P1). cbn [ostep] in W3. destruct W3 as (E3 & -> & W3). rewrite P1 in W3. destruct W3 as (_ & r & M & W3 & _). rewrite E1, E, (find_mid _ _ _ _ H), (lt_mid _ _ _ _ H) in W3. specialize (M j). rewrite Nat.eqb_refl in M. rewrite W3 in M by discriminate.
      destruct (IH ((k, v) :: B) o3 (st ++ [(k, v)]) cds3 o' st' j H) as (I1 & I2 & I3); auto; [congruence|]. rewrite I1, <- app_assoc. auto.
  Qed.
  Lemma scan_down_all : forall o st cds o' st' j, ascending cmp (o_recs o) -> oruns cmp _ (scan_down (length (o_recs o)) j) o st cds o' st' -> st' = st ++ rev (o_recs o) /\ o_recs o' = o_recs o /\ o_pos o' j = None.
  Proof.
    intros o st cds o' st' j H W. inversion W as [|c cs o0 s0 cd o1 st1 cds1 o2 st2 W1 W2]; subst. cbn [ostep] in W1. destruct W1 as (_ & E & -> & M). specialize (M j). rewrite Nat.eqb_refl in M.
    pose proof (down_from (o_recs o) [] o1 st cds1 o' st' j) as D. rewrite app_nil_r in D. apply D; auto.
  Qed.
End Facts.
