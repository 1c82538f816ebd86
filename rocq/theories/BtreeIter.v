(** Iterators on the B+ tree, against an ordered map. *)
From Coq Require Import List NArith ZArith Bool Lia Arith Permutation Sorting.Sorted.
Import ListNotations.
From Verif Require Import Bytes DbmModel StatusModel OmapSpec BtreeModel BtreeTree BtreeSort BtreeUp BtreeInv BtreeMerge BtreeOps BtreeRun.

Section Iter.
  Variable cmp : bytes -> bytes -> comparison.
  Hypothesis cmp_opp : forall a b, cmp b a = CompOpp (cmp a b).
  Hypothesis cmp_le_trans : forall a b c, cmp a b <> Gt -> cmp b c <> Gt -> cmp a c <> Gt.
  Notation klt := (klt cmp). Notation kle := (kle cmp). Notation ss := (ss cmp). Notation routes := (routes cmp). Notation routes_at := (routes_at cmp).
  Notation inv := (inv cmp).

  (** A position on a record of [E]. *)
  Definition it_at (E : list ent) (i : iter) : Prop := forall k ox, i = Some (k, ox) -> exists x A lo rs B v, ox = Some x /\ E = A ++ (lo, x, rs) :: B /\ In (k, v) rs.
  Lemma it_at_none : forall E, it_at E None. Proof. intros E k ox H. discriminate. Qed.
  Lemma it_at_some : forall (A : list ent) lo x (rs : list rec) (B : list ent) k v, In (k, v) rs -> it_at (A ++ (lo, x, rs) :: B) (Some (k, Some x)).
  Proof. intros A lo x rs B k v H k0 ox W. inversion W; subst. exists x, A, lo, rs, B, v. auto. Qed.
  Definition key_of (r : option rec) : option bytes := option_map fst r.

  Lemma pos_first_sure : forall fuel A B s, inv s [] (A ++ B) -> length B <= fuel ->
    sure (pos_first fuel (b_h s) (hdid B None)) (fun i => it_key i = key_of (hd_error (recs B)) /\ it_at (A ++ B) i).
  Proof.
    induction fuel as [|fu IH]; intros A B s H Hf; (destruct B as [|[[lo x] rs] B]; [cbn; split; auto; apply it_at_none|]); [cbn in Hf; lia|].
    cbn [hdid eid fst snd pos_first]. pose proof (inv_chain _ _ _ _ H) as Ch. rewrite (chain_at _ _ _ _ _ _ Ch). cbn [bind]. destruct rs as [|[k v] rs].
    - specialize (IH (A ++ [(lo, x, [])]) B s). rewrite <- app_assoc in IH. cbn [app] in IH. apply IH; auto. cbn in Hf. lia.
    - cbn. split; auto. eapply it_at_some. left. reflexivity.
  Qed.
  Lemma pos_last_sure : forall fuel A B s, inv s [] (A ++ B) -> length A <= fuel ->
    sure (pos_last fuel (b_h s) (lastid None A)) (fun i => it_key i = key_of (hd_error (rev (recs A))) /\ it_at (A ++ B) i).
  Proof.
    induction fuel as [|fu IH]; intros A B s H Hf.
    - destruct A; [|cbn in Hf; lia]. cbn. split; auto. apply it_at_none.
    - destruct A as [|a A] using rev_ind; [cbn; split; auto; apply it_at_none|]. clear IHA. destruct a as [[lo x] rs].
      rewrite lastid_app. cbn [lastid map last eid fst snd pos_last]. rewrite <- app_assoc in *. cbn [app] in *. pose proof (inv_chain _ _ _ _ H) as Ch. rewrite (chain_at _ _ _ _ _ _ Ch). cbn [bind].
      assert (Er : rev (recs (A ++ [(lo, x, rs)])) = rev rs ++ rev (recs A)) by (rewrite recs_app; cbn; rewrite app_nil_r; apply rev_app_distr). match goal with |- context [rev (recs ?q)] => replace (rev (recs q)) with (rev rs ++ rev (recs A)) by (symmetry; exact Er) end. destruct (rev rs) as [|[k v] r] eqn:Erv.
      + cbn [app]. apply IH; auto. rewrite app_length in Hf. cbn in Hf. lia.
      + cbn. split; auto. eapply (it_at_some _ _ _ _ _ _ v). apply in_rev. unfold rec in *. rewrite Erv. left. reflexivity.
  Qed.
  Lemma home_sure : forall s E key ox, inv s [] E -> (forall x, ox = Some x -> routes E key x) -> sure (home cmp s key ox) (fun x => routes E key x).
  Proof. intros s E key [x|] H Hx; cbn; auto. apply (search_sure cmp cmp_opp cmp_le_trans); auto. Qed.

  Lemma len_sides : forall s (A : list ent) (e : ent) (B : list ent), inv s [] (A ++ e :: B) -> length A <= b_fresh s /\ length B <= b_fresh s.
  Proof. intros s A e B H. pose proof (inv_len _ _ _ _ H) as W2. rewrite app_length in W2. cbn [length] in W2. lia. Qed.

  (** * Next *)
  Lemma next_at : forall s (A : list ent) lo x (rs : list rec) (B : list ent) key, inv s [] (A ++ (lo, x, rs) :: B) -> Forall (fun r : rec => kle (fst r) key) (recs A) -> Forall (fun r : rec => klt key (fst r)) (recs B) ->
    sure (next_impl cmp s key (Some x)) (fun i => it_key i = key_of (o_gt cmp key (recs (A ++ (lo, x, rs) :: B))) /\ it_at (A ++ (lo, x, rs) :: B) i).
  Proof.
    intros s A lo x rs B key H FA FB. unfold next_impl. cbn [home bind]. pose proof (inv_chain _ _ _ _ H) as Ch. rewrite (chain_at _ _ _ _ _ _ Ch). cbn [bind].
    pose proof (leaf_sorted _ _ _ _ _ _ (inv_ss _ _ _ _ H)) as Hl. destruct (upper cmp key rs) as [l1 l2] eqn:Eu. destruct (upper_spec cmp cmp_opp cmp_le_trans _ _ _ _ Hl Eu) as (Er & F1 & F2). cbn [snd].
    assert (Ef : o_gt cmp key (recs (A ++ (lo, x, rs) :: B)) = hd_error (l2 ++ recs B)).
    { unfold o_gt. rewrite recs_mid, Er, <- app_assoc. rewrite app_assoc, find_app. rewrite find_none_all.
      - apply find_all. apply Forall_app. split; (eapply Forall_impl; [|eassumption]); intros r Hr; apply (ltb_lt cmp); exact Hr.
      - apply Forall_app. split; (eapply Forall_impl; [|eassumption]); intros r Hr; apply (ltb_ge cmp cmp_opp); exact Hr. }
    rewrite Ef. destruct l2 as [|[k v] l2].
    - cbn [app]. specialize (pos_first_sure (b_fresh s) (A ++ [(lo, x, rs)]) B s). rewrite <- app_assoc. cbn [app]. intros W. apply W; auto. apply (len_sides _ _ _ _ H).
    - cbn. split; auto. eapply (it_at_some _ _ _ _ _ _ v). rewrite Er. apply in_or_app. right. left. reflexivity.
  Qed.
  Lemma sides : forall s (A : list ent) lo x (rs : list rec) (B : list ent) key, inv s [] (A ++ (lo, x, rs) :: B) -> routes_at A lo B key -> Forall (fun r : rec => klt (fst r) key) (recs A) /\ Forall (fun r : rec => klt key (fst r)) (recs B).
  Proof.
    intros s A lo x rs B key H R. pose proof (inv_ss _ _ _ _ H) as Hs. pose proof (inv_hdsome _ _ _ _ H) as Hd. split; apply Forall_forall; intros r Hr.
    - eapply (routes_before cmp cmp_opp cmp_le_trans); eauto. - eapply (routes_after cmp cmp_opp cmp_le_trans); eauto.
  Qed.
  Lemma le_of_lt : forall key l, Forall (fun r : rec => klt (fst r) key) l -> Forall (fun r : rec => kle (fst r) key) l.
  Proof. intros key l H. eapply Forall_impl; [|exact H]. intros r. apply klt_le. Qed.
  Lemma ge_of_gt : forall key l, Forall (fun r : rec => klt key (fst r)) l -> Forall (fun r : rec => kle key (fst r)) l.
  Proof. intros key l H. eapply Forall_impl; [|exact H]. intros r. apply klt_le. Qed.
  Lemma next_sure : forall s E key ox, inv s [] E -> (forall x, ox = Some x -> routes E key x) ->
    sure (next_impl cmp s key ox) (fun i => it_key i = key_of (o_gt cmp key (recs E)) /\ it_at E i).
  Proof.
    intros s E key ox H Hx. pose proof (home_sure s E key ox H Hx) as Hh. destruct (home cmp s key ox) as [x|] eqn:Eh; [|destruct Hh]. cbn in Hh. destruct Hh as (A & lo & rs & B & -> & R).
    destruct (sides _ _ _ _ _ _ _ H R) as [SA SB]. pose proof (next_at s A lo x rs B key H (le_of_lt _ _ SA) SB) as W. unfold next_impl in W |- *. rewrite Eh. exact W.
  Qed.

  (** * SyncPosition *)
  Lemma sync_sure : forall s E key ox, inv s [] E -> (forall x, ox = Some x -> routes E key x) ->
    sure (sync cmp s key ox) (fun i => it_key i = key_of (o_ge cmp key (recs E)) /\ it_at E i).
  Proof.
    intros s E key ox H Hx. unfold sync. eapply sure_bind; [apply home_sure; eauto|]. intros x (A & lo & rs & B & -> & R). pose proof (inv_chain _ _ _ _ H) as Ch. rewrite (chain_at _ _ _ _ _ _ Ch). cbn [bind].
    destruct (sides _ _ _ _ _ _ _ H R) as [SA SB]. pose proof (leaf_sorted _ _ _ _ _ _ (inv_ss _ _ _ _ H)) as Hl. destruct (lower cmp key rs) as [l1 l2] eqn:Eu. destruct (lower_spec cmp cmp_opp cmp_le_trans _ _ _ _ Hl Eu) as (Er & F1 & F2). cbn [snd].
    assert (Ef : o_ge cmp key (recs (A ++ (lo, x, rs) :: B)) = hd_error (l2 ++ recs B)).
    { unfold o_ge. rewrite recs_mid, Er, <- app_assoc. rewrite app_assoc, find_app. rewrite find_none_all.
      - apply find_all. apply ge_of_gt in SB. apply Forall_app. split; (eapply Forall_impl; [|eassumption]); intros r Hr; apply negb_true_iff; apply (ltb_ge cmp cmp_opp); exact Hr.
      - apply Forall_app. split; (eapply Forall_impl; [|eassumption]); intros r Hr; apply negb_false_iff; apply (ltb_lt cmp); exact Hr. }
    rewrite Ef. destruct l2 as [|[k v] l2].
    - cbn [app]. specialize (pos_first_sure (b_fresh s) (A ++ [(lo, x, rs)]) B s). rewrite <- app_assoc. cbn [app]. intros W. apply W; auto. apply (len_sides _ _ _ _ H).
    - cbn. split; auto. eapply (it_at_some _ _ _ _ _ _ v). rewrite Er. apply in_or_app. right. left. reflexivity.
  Qed.

  (** * Previous *)
  Lemma o_lt_eq : forall (A : list ent) lo x (rs : list rec) (B : list ent) key (l1 l2 : list rec), Forall (fun r : rec => klt (fst r) key) (recs A) -> Forall (fun r : rec => kle key (fst r)) (recs B) -> rs = l1 ++ l2 -> Forall (fun r : rec => klt (fst r) key) l1 -> Forall (fun r : rec => kle key (fst r)) l2 ->
    o_lt cmp key (recs (A ++ (lo, x, rs) :: B)) = hd_error (rev l1 ++ rev (recs A)).
  Proof.
    intros A lo x rs B key l1 l2 FA FB Er F1 F2. unfold o_lt. rewrite recs_mid, Er. rewrite !rev_app_distr, <- !app_assoc. rewrite app_assoc, find_app. rewrite find_none_all.
    - apply find_all. apply Forall_app. split; apply Forall_rev; (eapply Forall_impl; [|eassumption]); intros r Hr; apply (ltb_lt cmp); exact Hr.
    - apply Forall_app. split; apply Forall_rev; (eapply Forall_impl; [|eassumption]); intros r Hr; apply (ltb_ge cmp cmp_opp); exact Hr.
  Qed.
  (** In general the record found is one before the key, not always the nearest. *)
  Lemma prev_at : forall s (A : list ent) lo x (rs : list rec) (B : list ent) key, inv s [] (A ++ (lo, x, rs) :: B) -> Forall (fun r : rec => klt (fst r) key) (recs A) -> Forall (fun r : rec => kle key (fst r)) (recs B) ->
    sure (prev_impl cmp s key (Some x)) (fun i => it_at (A ++ (lo, x, rs) :: B) i /\ (forall k, it_key i = Some k -> klt k key) /\
      (Exists (fun r : rec => kle key (fst r)) rs -> it_key i = key_of (o_lt cmp key (recs (A ++ (lo, x, rs) :: B))))).
  Proof.
    intros s A lo x rs B key H FA FB. unfold prev_impl. cbn [home bind]. pose proof (inv_chain _ _ _ _ H) as Ch. rewrite (chain_at _ _ _ _ _ _ Ch). cbn [bind].
    pose proof (leaf_sorted _ _ _ _ _ _ (inv_ss _ _ _ _ H)) as Hl. destruct (lower cmp key rs) as [l1 l2] eqn:Eu. destruct (lower_spec cmp cmp_opp cmp_le_trans _ _ _ _ Hl Eu) as (Er & F1 & F2). cbn [snd fst].
    rewrite (o_lt_eq A lo x rs B key l1 l2); auto.
    assert (PL : sure (pos_last (b_fresh s) (b_h s) (lastid None A)) (fun i => it_at (A ++ (lo, x, rs) :: B) i /\ (forall k, it_key i = Some k -> klt k key) /\ it_key i = key_of (hd_error (rev (recs A))))).
    { assert (W2 : length A <= b_fresh s) by apply (len_sides _ _ _ _ H).
      eapply sure_impl; [|apply (pos_last_sure (b_fresh s) A ((lo, x, rs) :: B) s H W2)]. intros i [I1 I2]. split; auto. split; auto. intros k Hk. rewrite I1 in Hk. destruct (rev (recs A)) as [|r l] eqn:Ev; [discriminate|]. cbn in Hk. inversion Hk; subst k.
      rewrite Forall_forall in FA. apply FA. apply in_rev. rewrite Ev. left. reflexivity. }
    destruct l2 as [|r2 l2].
    - eapply sure_impl; [|exact PL]. intros i (I1 & I2 & I3). split; auto. split; auto. intros Ex. exfalso. rewrite Er, app_nil_r in Ex. apply Exists_exists in Ex. destruct Ex as (r & Hr & Hk). rewrite Forall_forall in F1. specialize (F1 r Hr). apply (klt_not cmp cmp_opp) in F1. auto.
    - unfold rec in *. destruct (rev l1) as [|[k v] r] eqn:Erv.
      + eapply sure_impl; [|exact PL]. intros i (I1 & I2 & I3). auto.
      + cbn. assert (In (k, v) l1) by (apply in_rev; rewrite Erv; left; reflexivity). split; [eapply (it_at_some _ _ _ _ _ _ v); rewrite Er; apply in_or_app; auto|]. split; auto. intros k0 E0. inversion E0; subst. rewrite Forall_forall in F1. apply (F1 (k0, v)); auto.
  Qed.
  Lemma prev_sure : forall s E key ox, inv s [] E -> (forall x, ox = Some x -> routes E key x) ->
    sure (prev_impl cmp s key ox) (fun i => it_at E i /\ (forall k, it_key i = Some k -> klt k key) /\ (o_find cmp key (recs E) <> None -> it_key i = key_of (o_lt cmp key (recs E)))).
  Proof.
    intros s E key ox H Hx. pose proof (home_sure s E key ox H Hx) as Hh. destruct (home cmp s key ox) as [x|] eqn:Eh; [|destruct Hh]. cbn in Hh. destruct Hh as (A & lo & rs & B & -> & R).
    destruct (sides _ _ _ _ _ _ _ H R) as [SA SB]. pose proof (prev_at s A lo x rs B key H SA (ge_of_gt _ _ SB)) as W. unfold prev_impl in W |- *. rewrite Eh. eapply sure_impl; [|exact W]. intros i (I1 & I2 & I3). split; auto. split; auto.
    intros Ho. apply I3. rewrite recs_mid in Ho. rewrite o_find_app in Ho by auto. clear - Ho SB cmp_opp.
    induction rs as [|[k v] rs IH]; cbn in Ho; [rewrite o_find_none in Ho; [congruence|exact SB]|]. destruct (cmp key k) eqn:Ec; [left; unfold BtreeTree.kle; cbn; congruence|right; auto|right; auto].
  Qed.

  (** * JumpLower and JumpUpper *)
  Lemma find_some_split : forall {A} (f : A -> bool) l x, find f l = Some x -> exists a b, l = a ++ x :: b /\ f x = true /\ Forall (fun y => f y = false) a.
  Proof.
    intros A f l x. induction l as [|y l IH]; cbn; [discriminate|]. destruct (f y) eqn:E; intros H. - inversion H; subst. exists [], l. auto.
    - destruct (IH H) as (a & b & -> & Hx & F). exists (y :: a), b. auto.
  Qed.
  Lemma find_none_forall : forall {A} (f : A -> bool) l, find f l = None -> Forall (fun y => f y = false) l.
  Proof. intros A f l. induction l as [|y l IH]; cbn; auto. destruct (f y) eqn:E; [discriminate|auto]. Qed.
  (** The leaf of the first record not less than a key has only lesser records before it. *)
  Lemma sync_leaf : forall E key k v x A lo rs B v1, ascending cmp (recs E) -> o_ge cmp key (recs E) = Some (k, v) -> E = A ++ (lo, x, rs) :: B -> In (k, v1) rs ->
    kle key k /\ Forall (fun r : rec => klt (fst r) key) (recs A) /\ Forall (fun r : rec => klt k (fst r)) (recs B) /\ Exists (fun r : rec => kle key (fst r)) rs.
  Proof.
    intros E key k v x A lo rs B v1 As Ho -> Hk. unfold o_ge in Ho. apply find_some_split in Ho. destruct Ho as (a & b & EL & Hge & Fa). apply negb_true_iff in Hge. apply (ltb_ge cmp cmp_opp) in Hge. cbn in Hge.
    rewrite recs_mid in As, EL. assert (As2 := As). apply SS_app in As2. destruct As2 as (_ & As2 & AA). apply SS_app in As2. destruct As2 as (_ & _ & AB).
    split; auto. split; [|split].
    - apply Forall_forall. intros r Hr. assert (klt (fst r) k) by (apply (AA r (k, v1)); auto; apply in_or_app; auto).
      assert (In r (a ++ (k, v) :: b)) as Hi by (rewrite <- EL; apply in_or_app; auto). apply in_app_or in Hi. destruct Hi as [Hi|Hi].
      + rewrite Forall_forall in Fa. specialize (Fa r Hi). apply negb_false_iff in Fa. apply (ltb_lt cmp). exact Fa.
      + exfalso. destruct Hi as [<-|Hi]; [eapply (klt_irrefl cmp cmp_opp); eauto|]. rewrite EL in As. apply SS_app in As. destruct As as (_ & As & _). inversion As; subst. rewrite Forall_forall in H3. specialize (H3 r Hi). cbn in H3.
        apply (klt_irrefl cmp cmp_opp k). eapply (klt_trans cmp cmp_opp cmp_le_trans); eauto.
    - apply Forall_forall. intros r Hr. apply (AB (k, v1) r); auto.
    - apply Exists_exists. exists (k, v1). auto.
  Qed.
  Lemma it_key_some : forall i k, it_key i = Some k -> exists ox, i = Some (k, ox).
  Proof. intros [[k0 ox]|] k H; cbn in H; inversion H; eauto. Qed.
  Lemma it_key_none : forall i, it_key i = None -> i = None.
  Proof. intros [[k0 ox]|] H; cbn in H; [discriminate|auto]. Qed.
  Lemma cmp_le_cases : forall k key, kle key k -> cmp k key = Eq \/ cmp k key = Gt.
  Proof. intros k key H. unfold BtreeTree.kle in H. rewrite cmp_opp. destruct (cmp key k); cbn; auto; congruence. Qed.
  Lemma klt_gt : forall k key, klt k key -> cmp key k = Gt. Proof. intros k key H. unfold BtreeTree.klt in H. now rewrite cmp_opp, H. Qed.
  Lemma o_ge_none : forall key L, o_ge cmp key L = None -> Forall (fun r : rec => klt (fst r) key) L.
  Proof. intros key L H. apply find_none_forall in H. eapply Forall_impl; [|exact H]. intros r Hr. cbn in Hr. apply negb_false_iff in Hr. apply (ltb_lt cmp). exact Hr. Qed.
  Lemma lower_loop_lt : forall fu s key inclusive i, (forall k, it_key i = Some k -> klt k key) -> lower_loop cmp (S fu) s key inclusive i = Ok i.
  Proof. intros fu s key inclusive [[k ox]|] H; cbn; auto. assert (klt k key) as W by (apply H; auto). unfold BtreeTree.klt in W. now rewrite W. Qed.

  Definition jump_low (key : bytes) (inclusive : bool) (L : omap) := if inclusive then o_le cmp key L else o_lt cmp key L.
  Definition jump_upp (key : bytes) (inclusive : bool) (L : omap) := if inclusive then o_ge cmp key L else o_gt cmp key L.
  Lemma o_all_lt : forall key L, Forall (fun r : rec => klt (fst r) key) L -> o_le cmp key L = hd_error (rev L) /\ o_lt cmp key L = hd_error (rev L).
  Proof.
    intros key L H. apply Forall_rev in H. split; apply find_all; (eapply Forall_impl; [|exact H]); intros r Hr; cbn.
    - apply negb_true_iff. apply (ltb_ge cmp cmp_opp). now apply klt_le. - apply (ltb_lt cmp). exact Hr.
  Qed.
  Lemma o_le_ge : forall key a k v b, Forall (fun r : rec => klt (fst r) key) a -> Forall (fun r : rec => klt k (fst r)) b -> kle key k ->
    o_le cmp key (a ++ (k, v) :: b) = (match cmp k key with Eq => Some (k, v) | _ => o_lt cmp key (a ++ (k, v) :: b) end).
  Proof.
    intros key a k v b Fa Fb Hk. assert (Fb2 : Forall (fun r : rec => klt key (fst r)) b) by (eapply Forall_impl; [|exact Fb]; intros r Hr; eapply (kle_lt_trans cmp cmp_opp cmp_le_trans); eauto).
    unfold o_le, o_lt. rewrite rev_app_distr. cbn [rev]. rewrite <- app_assoc. cbn [app]. rewrite !find_app.
    rewrite (find_none_all _ (rev b)) by (apply Forall_rev; eapply Forall_impl; [|exact Fb2]; intros r Hr; apply negb_false_iff; apply (ltb_lt cmp); exact Hr).
    rewrite (find_none_all _ (rev b)) by (apply Forall_rev; eapply Forall_impl; [|exact Fb2]; intros r Hr; apply (ltb_ge cmp cmp_opp); now apply klt_le).
    cbn [find fst]. assert (less cmp k key = false) as -> by (apply (ltb_ge cmp cmp_opp); exact Hk).
    assert (Ea : find (fun r : rec => negb (less cmp key (fst r))) (rev a) = find (fun r : rec => less cmp (fst r) key) (rev a)).
    { destruct (o_all_lt key a Fa) as [W1 W2]. exact (eq_trans W1 (eq_sym W2)). }
    destruct (cmp_le_cases k key Hk) as [E|E]; rewrite E; unfold less at 1; rewrite cmp_opp, E; cbn; auto.
  Qed.

  Lemma jump_lower_sure : forall s E j key inclusive, inv s [] E -> ascending cmp (recs E) ->
    sure (it_jump_lower cmp s j key inclusive) (fun s' => exists i, s' = set_it s j i /\ it_at E i /\ it_key i = key_of (jump_low key inclusive (recs E))).
  Proof.
    intros s E j key inclusive H As. unfold it_jump_lower. eapply sure_bind; [apply (sync_sure s E key None H); discriminate|]. intros i [I1 I2].
    destruct (o_ge cmp key (recs E)) as [[k v]|] eqn:Eo; cbn in I1.
    - destruct (it_key_some _ _ I1) as (ox & ->). cbn [bind]. destruct (I2 k ox eq_refl) as (x & A & lo & rs & B & v1 & -> & EE & Hk).
      destruct (sync_leaf E key k v x A lo rs B v1 As Eo EE Hk) as (Hge & FA & FB & Ex).
      assert (FB2 : Forall (fun r : rec => klt key (fst r)) (recs B)) by (eapply Forall_impl; [|exact FB]; intros r Hr; eapply (kle_lt_trans cmp cmp_opp cmp_le_trans); eauto).
      assert (Hle : o_le cmp key (recs E) = (match cmp k key with Eq => Some (k, v) | _ => o_lt cmp key (recs E) end)).
      { apply find_some_split in Eo. destruct Eo as (a & b & EL & _ & Fa). rewrite EL. rewrite EL in As. apply SS_app in As. destruct As as (_ & As & _). inversion As; subst. apply o_le_ge; auto. eapply Forall_impl; [|exact Fa]. intros r Hr. cbn in Hr. apply negb_false_iff in Hr. apply (ltb_lt cmp). exact Hr. }
      assert (Pv : sure (i1 <~ prev_impl cmp s key (Some x) ;; lower_loop cmp 1 s key inclusive i1) (fun i => it_at E i /\ it_key i = key_of (o_lt cmp key (recs E)))).
      { subst E. eapply sure_bind; [apply (prev_at s A lo x rs B key H FA (ge_of_gt _ _ FB2))|]. intros i (J1 & J2 & J3). rewrite lower_loop_lt by auto. cbn. split; auto. }
      assert (St : sure (lower_loop cmp 2 s key inclusive (Some (k, Some x))) (fun i => it_at E i /\ it_key i = key_of (jump_low key inclusive (recs E)))).
      { cbn [lower_loop]. unfold jump_low. destruct (cmp_le_cases k key Hge) as [Ec|Ec]; rewrite Ec.
        - destruct inclusive; [|exact Pv]. cbn. split; auto. rewrite Hle, Ec. reflexivity.
        - destruct inclusive; [|exact Pv]. rewrite Hle, Ec. exact Pv. }
      eapply sure_bind; [exact St|]. intros i [J1 J2]. cbn. eauto.
    - apply it_key_none in I1. subst i. pose proof (o_ge_none _ _ Eo) as Fl. destruct (o_all_lt _ _ Fl) as [L1 L2]. rewrite <- (inv_last _ _ _ _ H). pose proof (inv_len _ _ _ _ H) as Hlen.
      assert (H' := H). rewrite <- (app_nil_r E) in H'. pose proof (pos_last_sure (b_fresh s) E [] s H' Hlen) as W. rewrite app_nil_r in W. eapply sure_bind; [exact W|]. intros i [J1 J2].
      rewrite lower_loop_lt. + cbn. exists i. split; auto. split; auto. unfold jump_low. destruct inclusive; rewrite ?L1, ?L2; exact J1.
      + intros k Hk. rewrite J1 in Hk. destruct (rev (recs E)) as [|r l] eqn:Ev; [discriminate|]. cbn in Hk. inversion Hk; subst k. rewrite Forall_forall in Fl. apply Fl. apply in_rev. rewrite Ev. left. reflexivity.
  Qed.
  Lemma jump_upper_sure : forall s E j key inclusive, inv s [] E -> ascending cmp (recs E) ->
    sure (it_jump_upper cmp s j key inclusive) (fun s' => exists i, s' = set_it s j i /\ it_at E i /\ it_key i = key_of (jump_upp key inclusive (recs E))).
  Proof.
    intros s E j key inclusive H As. unfold it_jump_upper. eapply sure_bind; [apply (sync_sure s E key None H); discriminate|]. intros i [I1 I2].
    destruct (o_ge cmp key (recs E)) as [[k v]|] eqn:Eo; cbn in I1.
    - destruct (it_key_some _ _ I1) as (ox & ->). destruct (I2 k ox eq_refl) as (x & A & lo & rs & B & v1 & -> & EE & Hk).
      destruct (sync_leaf E key k v x A lo rs B v1 As Eo EE Hk) as (Hge & FA & FB & Ex).
      assert (FB2 : Forall (fun r : rec => klt key (fst r)) (recs B)) by (eapply Forall_impl; [|exact FB]; intros r Hr; eapply (kle_lt_trans cmp cmp_opp cmp_le_trans); eauto).
      assert (Hgt : cmp k key = Gt -> o_gt cmp key (recs E) = Some (k, v)).
      { intros Ec. apply find_some_split in Eo. destruct Eo as (a & b & EL & _ & Fa). rewrite EL. unfold o_gt. rewrite find_app, find_none_all.
        - cbn. unfold less. rewrite cmp_opp, Ec. reflexivity.
        - eapply Forall_impl; [|exact Fa]. intros r Hr. cbn in Hr. apply negb_false_iff in Hr. apply (ltb_lt cmp) in Hr. apply (ltb_ge cmp cmp_opp). now apply klt_le. }
      assert (St : sure (upper_loop cmp 2 s key inclusive (Some (k, Some x))) (fun i => it_at E i /\ it_key i = key_of (jump_upp key inclusive (recs E)))).
      { cbn [upper_loop]. unfold jump_upp. destruct (cmp_le_cases k key Hge) as [Ec|Ec]; rewrite Ec.
        - destruct inclusive. + cbn. split; auto. rewrite Eo. reflexivity.
          + subst E. eapply sure_bind; [apply (next_at s A lo x rs B key H (le_of_lt _ _ FA) FB2)|]. intros i [J1 J2]. destruct i as [[k1 ox]|] eqn:Ei.
            * assert (cmp k1 key = Gt) as ->. { assert (Hg : forall g, key_of g = Some k1 -> (forall r, g = Some r -> ltb cmp key (fst r) = true) -> cmp k1 key = Gt).
                { intros [[k2 v2]|] W1 W2; [|discriminate W1]. cbn in W1. inversion W1; subst k2. specialize (W2 _ eq_refl). apply (ltb_lt cmp) in W2. cbn in W2. unfold BtreeTree.klt in W2. now rewrite cmp_opp, W2. }
                apply (Hg _ (eq_sym J1)). intros r Hr. apply find_some in Hr. apply Hr. } cbn. auto.
            * cbn. auto.
        - cbn. split; auto. destruct inclusive; [rewrite Eo|rewrite (Hgt Ec)]; reflexivity. }
      eapply sure_bind; [exact St|]. intros i [J1 J2]. cbn. eauto.
    - apply it_key_none in I1. subst i. cbn. exists None. split; auto. split; [apply it_at_none|]. unfold jump_upp. destruct inclusive; [rewrite Eo; auto|]. pose proof (o_ge_none _ _ Eo) as Fl. unfold o_gt. rewrite find_none_all; auto.
      eapply Forall_impl; [|exact Fl]. intros r Hr. apply (ltb_ge cmp cmp_opp). now apply klt_le.
  Qed.

  (** * The whole states *)
  Lemma set_it_inv : forall s E j i, inv s [] E -> (it_at E i \/ (forall k x, i <> Some (k, Some x))) -> inv (set_it s j i) [] E.
  Proof.
    intros s E j i H Hi. pose proof (inv_ss _ _ _ _ H) as Hs. destruct H as [H1 H2 H3 H4]. constructor; auto. intros j0 k x Hj. cbn in Hj. destruct (Nat.eqb j0 j); [|eapply H3; eauto]. subst i. destruct Hi as [Hi|Hi]; [|exfalso; eapply Hi; eauto].
    destruct (Hi k (Some x) eq_refl) as (y & A & lo & rs & B & v & Ey & EE & Hk). inversion Ey; subst y E. exists A, lo, rs, B. split; auto. eapply routes_rec; eauto.
  Qed.
  Lemma set_it_keys : forall s j i j0, it_key (b_its (set_it s j i) j0) = if Nat.eqb j0 j then it_key i else it_key (b_its s j0).
  Proof. intros. cbn. destruct (Nat.eqb j0 j); auto. Qed.
End Iter.
