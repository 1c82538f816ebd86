(** ReorganizeTree and ProcessImpl on the B+ tree: the invariant is kept, the records are those of an ordered map. *)
From Coq Require Import List NArith ZArith Bool Lia Arith Permutation Sorting.Sorted.
Import ListNotations.
From Verif Require Import Bytes DbmModel OmapSpec BtreeModel BtreeTree BtreeSort BtreeUp BtreeInv BtreeMerge.

Lemma nodup_bound : forall (l : list nat) n, NoDup l -> Forall (fun y => y < n) l -> length l <= n.
Proof.
  intros l n N F. rewrite <- (seq_length n 0). apply NoDup_incl_length; auto. intros y Hy. rewrite Forall_forall in F. apply in_seq. specialize (F y Hy). lia.
Qed.
Lemma remove_nth_in : forall {A} (l : list A) i a, In a (remove_nth i l) -> In a l.
Proof. induction l as [|b l IH]; intros i a H; [destruct i; auto|]. destruct i; cbn in *; auto. destruct H; eauto. Qed.
Lemma remove_nth_len : forall {A} (l : list A) i a, nth_error l i = Some a -> S (length (remove_nth i l)) = length l.
Proof. induction l as [|b l IH]; intros [|i] a H; cbn in *; try discriminate; auto. f_equal. eapply IH; eauto. Qed.

Section Ops.
  Variable cmp : bytes -> bytes -> comparison.
  Hypothesis cmp_opp : forall a b, cmp b a = CompOpp (cmp a b).
  Hypothesis cmp_le_trans : forall a b c, cmp a b <> Gt -> cmp b c <> Gt -> cmp a c <> Gt.
  Notation klt := (klt cmp). Notation kle := (kle cmp). Notation ss := (ss cmp). Notation mlt := (mlt cmp). Notation routes := (routes cmp). Notation routes_at := (routes_at cmp).
  Notation core := (core cmp). Notation inv := (inv cmp).
  Variables divp mrgp : list rec -> bool.
  Variable weight : list rec -> N.
  Variable how : leafcf.
  Variables max_branches level_max : nat.
  Variable choose : list (id * bytes) -> nat.
  Hypothesis divp_two : forall rs, divp rs = true -> 2 <= length rs.
  Notation divide := (divide cmp max_branches level_max). Notation merge := (merge cmp weight max_branches level_max).
  Notation reorganize_loop := (reorganize_loop cmp divp mrgp weight max_branches level_max choose).
  Notation reorganize := (reorganize cmp divp mrgp weight max_branches level_max choose).

  Lemma inv_nodup : forall s d E, inv s d E -> NoDup (map eid E).
  Proof. intros s d E [(t & -> & C) _ _ _]. eapply nodup_r. apply (c_nd _ _ _ _ _ _ _ _ C). Qed.
  Lemma inv_hdsome : forall s d E, inv s d E -> hdsome E.
  Proof. intros s d E [(t & -> & C) _ _ _]. apply hdsome_items. Qed.
  Lemma inv_ss : forall s d E, inv s d E -> ss E.
  Proof. intros s d E [(t & -> & C) _ _ _]. apply (c_ss _ _ _ _ _ _ _ _ C). Qed.
  Lemma inv_chain : forall s d E, inv s d E -> chain (b_h s) None E None.
  Proof. intros s d E [(t & -> & C) _ _ _]. apply (c_chain _ _ _ _ _ _ _ _ C). Qed.
  Lemma inv_len : forall s d E, inv s d E -> length E <= b_fresh s.
  Proof.
    intros s d E H. pose proof (inv_nodup _ _ _ H) as N. destruct H as [(t & -> & C) _ _ _]. rewrite <- (map_length eid). apply nodup_bound; auto.
    pose proof (c_fr _ _ _ _ _ _ _ _ C) as F. apply Forall_app in F. apply F.
  Qed.
  Lemma inv_first : forall s d E, inv s d E -> hdid E None = Some (b_first s).
  Proof. intros s d E [(t & -> & C) _ _ _]. apply (c_first _ _ _ _ _ _ _ _ C). Qed.
  Lemma inv_last : forall s d E, inv s d E -> lastid None E = Some (b_last s).
  Proof. intros s d E [(t & -> & C) _ _ _]. apply (c_last _ _ _ _ _ _ _ _ C). Qed.
  Lemma inv_weaken : forall s d d' E, inv s d E -> incl d d' -> inv s d' E.
  Proof. intros s d d' E [H1 H2 H3 H4] I. constructor; auto. Qed.
  Lemma inv_search : forall s d E key, inv s d E -> exists A lo x rs B, b_search cmp s key = Ok x /\ E = A ++ (lo, x, rs) :: B /\ routes_at A lo B key.
  Proof.
    intros s d E key [(t & -> & C) _ _ _]. destruct (descent_inv cmp cmp_opp cmp_le_trans _ _ _ _ _ _ _ key C) as (p & x & rs & H1 & H2 & H3 & H4 & H5 & H6 & H7).
    exists (ppre None p), (plo None p), x, rs, (ppost p). auto.
  Qed.
  Lemma set_reorg_inv : forall s d E l, inv s d E -> (forall e, In e l -> In e (b_reorg s)) -> inv (set_reorg s l) d E.
  Proof. intros s d E l [H1 H2 H3 H4] I. constructor; auto. Qed.

  (** * ReorganizeTree *)
  Lemma reorganize_loop_ok : forall fuel s done E, inv s done E -> fuel = length (b_reorg s) ->
    reorganize_loop fuel s done = Ub DeepTree \/
    exists s' E', reorganize_loop fuel s done = Ok s' /\ inv s' [] E' /\ b_reorg s' = [] /\ recs E' = recs E /\ (forall j, it_key (b_its s' j) = it_key (b_its s j)).
  Proof.
    induction fuel as [|fu IH]; intros s done E H Ef; cbn [BtreeModel.reorganize_loop].
    - assert (Er : b_reorg s = []) by (destruct (b_reorg s); [auto|discriminate]). right. exists s, E. split; auto. split; [|auto].
      destruct H as [H1 H2 H3 H4]. constructor; auto. rewrite Er. intros ? ? [].
    - set (i := Nat.modulo (choose (b_reorg s)) (length (b_reorg s))). assert (Hi : i < length (b_reorg s)) by (apply Nat.mod_upper_bound; lia).
      destruct (nth_error (b_reorg s) i) as [[x k]|] eqn:En; [|apply nth_error_None in En; lia].
      pose proof (remove_nth_len _ _ _ En) as Hl. assert (H1 : inv (set_reorg s (remove_nth i (b_reorg s))) done E) by (apply set_reorg_inv; auto; intros e; apply remove_nth_in).
      set (s1 := set_reorg s (remove_nth i (b_reorg s))) in *.
      destruct (existsb (Nat.eqb x) done) eqn:Ed.
      + destruct (IH s1 done E H1) as [R|(s' & E' & R & R1 & R2 & R3 & R4)]; [cbn; lia|left; exact R|right]. exists s', E'. auto.
      + assert (Nd : ~ In x done). { intros W. assert (existsb (Nat.eqb x) done = true) by (apply existsb_exists; exists x; split; auto; apply Nat.eqb_refl). congruence. }
        destruct (i_reorg _ _ _ _ H x k (nth_error_In _ _ En) Nd) as (A & lo & rs & B & EE & R).
        pose proof (inv_chain _ _ _ H) as Ch. rewrite EE in Ch. rewrite (chain_at _ _ _ _ _ _ Ch). cbn [bind].
        assert (St : (if divp rs then divide s1 x k else if mrgp rs && negb (Nat.eqb x (b_root s)) then merge s1 x k else Ok s1) = Ub DeepTree \/
                 exists s2 E2, (if divp rs then divide s1 x k else if mrgp rs && negb (Nat.eqb x (b_root s)) then merge s1 x k else Ok s1) = Ok s2 /\ inv s2 (x :: done) E2 /\ same s1 s2 E E2).
        { destruct (divp rs) eqn:Edv; [eapply divide_ok; eauto|]. destruct (mrgp rs && negb (Nat.eqb x (b_root s))) eqn:Em.
          - apply andb_prop in Em. destruct Em as [_ Em]. apply negb_true_iff, Nat.eqb_neq in Em. eapply merge_ok; eauto.
          - right. exists s1, E. split; auto. split; [|repeat split]. apply (inv_weaken s1 done); auto. intros y; cbn; auto. }
        destruct St as [St|(s2 & E2 & St & I2 & Q1 & Q2 & Q3 & Q4)]; rewrite St; cbn [bind]; [left; auto|].
        destruct (IH s2 (x :: done) E2 I2) as [W|(s' & E' & W & W1 & W2 & W3 & W4)]; [rewrite Q2; cbn; lia|left; exact W|right].
        exists s', E'. split; auto. split; auto. split; auto. split; [congruence|]. intros j. rewrite W4, Q4. reflexivity.
  Qed.
  Lemma reorganize_ok : forall s E, inv s [] E -> reorganize s = Ub DeepTree \/
    exists s' E', reorganize s = Ok s' /\ inv s' [] E' /\ b_reorg s' = [] /\ recs E' = recs E /\ (forall j, it_key (b_its s' j) = it_key (b_its s j)).
  Proof. intros s E H. apply reorganize_loop_ok; auto. Qed.

  (** * A change inside a leaf *)
  Lemma shape_routes : forall A lo x rs rs' B k y, routes (A ++ (lo, x, rs) :: B) k y -> routes (A ++ (lo, x, rs') :: B) k y.
  Proof.
    intros A lo x rs rs' B k y (A1 & lo1 & rs1 & B1 & E & R1 & R2 & R3). destruct (split_cases _ _ _ _ _ _ E) as [(Q1 & Q2 & Q3)|[(c & Q1 & Q2)|(c & Q1 & Q2)]].
    - inversion Q2; subst. exists A1, lo1, rs', B1. repeat split; auto.
    - subst. exists (A ++ (lo, x, rs') :: c), lo1, rs1, B1. split; [now rewrite <- app_assoc|]. repeat split; auto. intros a Ha. apply R1. rewrite in_marks_sep in *. destruct Ha as (e & He & Ee). apply in_app_or in He. destruct He as [He|[He|He]].
      + exists e. split; auto. apply in_or_app; auto. + subst e. exists (lo, x, rs). split; auto. apply in_or_app; cbn; auto. + exists e. split; auto. apply in_or_app; cbn; auto.
    - subst. exists A1, lo1, rs1, (c ++ (lo, x, rs') :: B). split; [now rewrite <- app_assoc|]. repeat split; auto. intros b Hb. apply R3. rewrite in_marks_sep in *. destruct Hb as (e & He & Ee). apply in_app_or in He. destruct He as [He|[He|He]].
      + exists e. split; auto. apply in_or_app; auto. + subst e. exists (lo, x, rs). split; auto. apply in_or_app; cbn; auto. + exists e. split; auto. apply in_or_app; cbn; auto.
  Qed.
  Lemma put_leaf_ok : forall s done A lo x rs B key rs' num, inv s done (A ++ (lo, x, rs) :: B) -> routes_at A lo B key -> ss (A ++ (lo, x, rs') :: B) ->
    num = Z.of_nat (length (recs (A ++ (lo, x, rs') :: B))) -> inv (put_leaf s x (lastid None A) (hdid B None) rs' num) done (A ++ (lo, x, rs') :: B).
  Proof.
    intros s done A lo x rs B key rs' num H R Hs Hn. pose proof (inv_nodup _ _ _ H) as Nids. pose proof (inv_hdsome _ _ _ H) as Hd.
    destruct H as [(t & Et & C) Hnum Hits Hre]. destruct (descent_inv cmp cmp_opp cmp_le_trans _ _ _ _ _ _ _ key C) as (p & x' & rs1 & Ept & _ & _ & Hpd & Hpl & Eit & R').
    destruct (routes_unique cmp cmp_opp _ _ _ _ _ _ _ _ _ _ _ key Hd eq_refl (eq_trans Et Eit) R R') as (EA & Elo & <- & <- & EB).
    assert (Nx : ~ In x (map eid A ++ map eid B)) by (rewrite map_app in Nids; cbn in Nids; apply NoDup_remove_2 in Nids; exact Nids). rewrite in_app_iff in Nx.
    set (t' := plugs p (TL x rs')). assert (Et' : items None t' = A ++ (lo, x, rs') :: B) by (unfold t'; rewrite items_plugs, EA, Elo, EB; reflexivity).
    destruct C as [C1 C2 C3 C4 C5 C6 C7 C8 C9 C10]. rewrite <- Et in *.
    assert (Pin : Permutation (inners t) (inners t')) by (rewrite Ept; unfold t'; rewrite !inners_plugs; reflexivity).
    assert (Eid : map eid (A ++ (lo, x, rs') :: B) = map eid (A ++ (lo, x, rs) :: B)) by (rewrite !map_app; reflexivity).
    constructor; cbn [put_leaf b_h b_fresh b_level b_root b_first b_last b_num b_its b_reorg]; auto.
    - exists t'. split; auto. constructor; rewrite ?Et'; auto.
      + rewrite <- C1, Ept. apply rid_plugs. reflexivity.
      + unfold t'. rewrite <- Hpl. apply (dep_plugs p 0); auto. constructor.
      + eapply hm_perm; [exact Pin|]. apply hm_upd; auto. intros W. eapply (nodup_disj _ _ x C6); eauto. rewrite map_app. apply in_or_app. cbn. auto.
      + apply chain_app in C5. destruct C5 as [Ca Cb]. cbn [chain hdid eid fst snd] in Ca, Cb. destruct Cb as [_ Cb]. apply chain_app. split; [|cbn [chain]; split].
        * cbn. apply chain_upd; tauto. * apply updn_eq. * apply chain_upd; tauto.
      + rewrite Eid. eapply nodup_perm; [apply Permutation_map; exact Pin|exact C6].
      + rewrite Eid. apply Forall_forall. intros y Hy. rewrite Forall_forall in C7. apply C7. apply in_app_or in Hy. apply in_or_app. destruct Hy as [Hy|Hy]; auto. left. eapply Permutation_in; [apply Permutation_map; symmetry; exact Pin|exact Hy].
      + rewrite <- C9, !hdid_app. reflexivity.
      + rewrite <- C10, !lastid_app, !lastid_cons. reflexivity.
    - intros j k0 z Hj. apply (shape_routes _ _ _ rs). eauto.
    - intros z k0 Hz Nz. apply (shape_routes _ _ _ rs). eauto.
  Qed.
  Lemma note_ok : forall s done A lo x rs B k v, inv s done (A ++ (lo, x, rs) :: B) -> In (k, v) rs -> inv (add_reorg s x k) done (A ++ (lo, x, rs) :: B).
  Proof.
    intros s done A lo x rs B k v H Hk. unfold add_reorg. destruct (existsb _ _); auto. pose proof (inv_ss _ _ _ H) as Hs. destruct H as [H1 H2 H3 H4]. constructor; auto. cbn.
    intros y k0 [E|E] Ny; auto. inversion E; subst. exists A, lo, rs, B. split; auto. eapply routes_rec; eauto.
  Qed.
  Lemma note_at : forall s done A lo x rs B k, inv s done (A ++ (lo, x, rs) :: B) -> routes_at A lo B k -> inv (add_reorg s x k) done (A ++ (lo, x, rs) :: B).
  Proof.
    intros s done A lo x rs B k H R. unfold add_reorg. destruct (existsb _ _); auto. destruct H as [H1 H2 H3 H4]. constructor; auto. cbn.
    intros y k0 [E|E] Ny; auto. inversion E; subst. exists A, lo, rs, B. auto.
  Qed.
  Lemma add_reorg_its : forall s x k, b_its (add_reorg s x k) = b_its s /\ b_fresh (add_reorg s x k) = b_fresh s /\ b_first (add_reorg s x k) = b_first s /\ b_h (add_reorg s x k) = b_h s /\ b_root (add_reorg s x k) = b_root s.
  Proof. intros. unfold add_reorg. destruct (existsb _ _); auto. Qed.

  Lemma lower_spec : forall key (rs : list rec) l1 l2, StronglySorted (fun a b : rec => klt (fst a) (fst b)) rs -> lower cmp key rs = (l1, l2) ->
    rs = l1 ++ l2 /\ Forall (fun r => klt (fst r) key) l1 /\ Forall (fun r => kle key (fst r)) l2.
  Proof.
    intros key rs l1 l2 H E. unfold lower in E. pose proof (split_at_app (fun x => ltb cmp x key) rs) as E1. rewrite E in E1. cbn in E1.
    pose proof (split_at_left (fun x => ltb cmp x key) rs) as F1. rewrite E in F1. cbn in F1.
    pose proof (split_at_right (fun x => ltb cmp x key) rs) as F2. rewrite E in F2. cbn [snd] in F2. split; auto. split.
    - eapply Forall_impl; [|exact F1]. intros [k v] W. cbn in *. now apply ltb_lt.
    - destruct l2 as [|[k v] l2]; auto. specialize (F2 _ _ _ eq_refl). cbn in F2. apply (ltb_ge cmp cmp_opp) in F2. constructor; auto. rewrite <- E1 in H. apply SS_app in H. destruct H as (_ & H & _). inversion H; subst.
      eapply Forall_impl; [|exact H3]. intros r W. cbn in W. apply klt_le. eapply (kle_lt_trans cmp cmp_opp cmp_le_trans); eauto.
  Qed.
  Lemma upper_spec : forall key (rs : list rec) l1 l2, StronglySorted (fun a b : rec => klt (fst a) (fst b)) rs -> upper cmp key rs = (l1, l2) ->
    rs = l1 ++ l2 /\ Forall (fun r => kle (fst r) key) l1 /\ Forall (fun r => klt key (fst r)) l2.
  Proof.
    intros key rs l1 l2 H E. unfold upper in E. pose proof (split_at_app (fun x => negb (ltb cmp key x)) rs) as E1. rewrite E in E1. cbn in E1.
    pose proof (split_at_left (fun x => negb (ltb cmp key x)) rs) as F1. rewrite E in F1. cbn in F1.
    pose proof (split_at_right (fun x => negb (ltb cmp key x)) rs) as F2. rewrite E in F2. cbn [snd] in F2. split; auto. split.
    - eapply Forall_impl; [|exact F1]. intros [k v] W. cbn in *. apply negb_true_iff in W. now apply (ltb_ge cmp cmp_opp) in W.
    - destruct l2 as [|[k v] l2]; auto. specialize (F2 _ _ _ eq_refl). cbn in F2. apply negb_false_iff in F2. apply ltb_lt in F2. constructor; auto. rewrite <- E1 in H. apply SS_app in H. destruct H as (_ & H & _). inversion H; subst.
      eapply Forall_impl; [|exact H3]. intros r W. cbn in W. eapply (klt_trans cmp cmp_opp cmp_le_trans); eauto.
  Qed.
  Lemma leaf_sorted : forall A lo x rs B, ss (A ++ (lo, x, rs) :: B) -> StronglySorted (fun a b : rec => klt (fst a) (fst b)) rs.
  Proof. intros A lo x rs B H. apply ss_recs in H. rewrite recs_app in H. apply SS_app in H. destruct H as (_ & H & _). cbn in H. apply SS_app in H. apply H. Qed.

  (** The place of a key in the records. *)
  Lemma place : forall A lo x rs B key l1 l2, ss (A ++ (lo, x, rs) :: B) -> hdsome (A ++ (lo, x, rs) :: B) -> routes_at A lo B key -> lower cmp key rs = (l1, l2) ->
    recs (A ++ (lo, x, rs) :: B) = (recs A ++ l1) ++ l2 ++ recs B /\ Forall (fun r => klt (fst r) key) (recs A ++ l1) /\ Forall (fun r => klt key (fst r)) (recs B) /\ Forall (fun r => kle key (fst r)) l2 /\ rs = l1 ++ l2 /\
    StronglySorted (fun a b : rec => klt (fst a) (fst b)) l2.
  Proof.
    intros A lo x rs B key l1 l2 H Hd R El. pose proof (leaf_sorted _ _ _ _ _ H) as Hl. destruct (lower_spec _ _ _ _ Hl El) as (Er & F1 & F2). repeat split; auto.
    - rewrite recs_app. cbn. rewrite Er, <- !app_assoc. reflexivity.
    - apply Forall_app. split; auto. apply Forall_forall. intros r Hr. eapply (routes_before cmp cmp_opp cmp_le_trans); eauto.
    - apply Forall_forall. intros r Hr. eapply (routes_after cmp cmp_opp cmp_le_trans); eauto.
    - rewrite Er in Hl. apply SS_app in Hl. apply Hl.
  Qed.
  Lemma ins_ss : forall A lo x l1 l2 B key v, ss (A ++ (lo, x, l1 ++ l2) :: B) -> hdsome (A ++ (lo, x, l1 ++ l2) :: B) -> routes_at A lo B key ->
    Forall (fun r : rec => klt (fst r) key) l1 -> Forall (fun r : rec => klt key (fst r)) l2 -> ss (A ++ (lo, x, l1 ++ (key, v) :: l2) :: B).
  Proof.
    intros A lo x l1 l2 B key v H Hd R F1 F2. pose proof R as (R1 & R2 & R3). pose proof H as H0. unfold BtreeSort.ss in H |- *. rewrite marks_app, marks_cons in H |- *. cbn [elo ers fst snd] in H |- *. rewrite mrs_app in H |- *. cbn [mrs map]. fold (mrs l2).
    cbn [fst]. rewrite <- !app_assoc in H |- *. cbn [app]. rewrite (app_assoc (sep1 lo)), app_assoc in H |- *. apply SS_ins; auto.
    - intros u Hu. apply in_app_or in Hu. destruct Hu as [Hu|Hu].
      + destruct u as [a|a]. * cbn. auto. * cbn. apply in_marks_rec in Hu. destruct Hu as (v1 & Hu). change a with (fst (a, v1)). eapply (routes_before cmp cmp_opp cmp_le_trans); eauto.
      + apply in_app_or in Hu. destruct Hu as [Hu|Hu]. * destruct lo as [l|]; [|destruct Hu]. destruct Hu as [<-|[]]. cbn. auto. * apply in_mrs in Hu. destruct Hu as (r & Hr & ->). cbn. rewrite Forall_forall in F1. auto.
    - intros u Hu. apply in_app_or in Hu. destruct Hu as [Hu|Hu].
      + apply in_mrs in Hu. destruct Hu as (r & Hr & ->). cbn. rewrite Forall_forall in F2. auto.
      + destruct u as [a|a]; cbn. * auto. * apply in_marks_rec in Hu. destruct Hu as (v1 & Hu). change a with (fst (a, v1)). eapply (routes_after cmp cmp_opp cmp_le_trans); eauto.
  Qed.
  Lemma del_ss : forall A lo x l1 r l2 B, ss (A ++ (lo, x, l1 ++ r :: l2) :: B) -> ss (A ++ (lo, x, l1 ++ l2) :: B).
  Proof.
    intros A lo x l1 r l2 B H. unfold BtreeSort.ss in *. rewrite marks_app, marks_cons in *. cbn [elo ers fst snd] in *. rewrite mrs_app in *. cbn [mrs map] in H. fold (mrs l2) in H.
    change (MR (fst r) :: mrs l2) with ([MR (fst r)] ++ mrs l2) in H. rewrite <- !app_assoc in *. rewrite (app_assoc (sep1 lo)), app_assoc in *. apply SS_del in H. exact H.
  Qed.
  Lemma chg_ss : forall A lo x l1 k v v1 l2 B, ss (A ++ (lo, x, l1 ++ (k, v) :: l2) :: B) -> ss (A ++ (lo, x, l1 ++ (k, v1) :: l2) :: B).
  Proof. intros A lo x l1 k v v1 l2 B H. unfold BtreeSort.ss in *. rewrite marks_app, marks_cons in *. cbn [elo ers fst snd] in *. rewrite mrs_app in *. exact H. Qed.

  Definition tied (s s' : bdb) : Prop := b_its s' = b_its s /\ b_fresh s' = b_fresh s /\ b_first s' = b_first s /\ b_root s' = b_root s.
  Lemma note_tied : forall s x rs (Hrs : rs <> []), exists s', note s x rs = Ok s' /\ tied s s' /\ exists k v, In (k, v) rs /\ s' = add_reorg s x k.
  Proof. intros s x [|[k v] rs] H; [congruence|]. exists (add_reorg s x k). cbn. split; auto. pose proof (add_reorg_its s x k) as (W1 & W2 & W3 & W4 & W5). split; [repeat split; auto|]. exists k, v. auto. Qed.

  Lemma recs_mid : forall A lo x rs B, recs (A ++ (lo, x, rs) :: B) = recs A ++ rs ++ recs B.
  Proof. intros. rewrite recs_app. reflexivity. Qed.
  Ltac len := rewrite ?recs_mid; repeat (first [rewrite app_length | progress cbn [length]]); unfold rec, id; lia.
  Lemma b_impl_ok : forall S s done A lo x rs B key (pr : proc S) w st, let E := A ++ (lo, x, rs) :: B in inv s done E -> routes_at A lo B key ->
    ((exists kv, rs = [kv]) /\ x <> b_root s /\ w = true /\ h_strict how = true /\ b_impl cmp divp mrgp how s x key pr w st = Ub EmptyFront) \/
    exists s' rs', let E' := A ++ (lo, x, rs') :: B in b_impl cmp divp mrgp how s x key pr w st = Ok (s', snd (o_process cmp (recs E) key pr w st)) /\
      inv s' done E' /\ recs E' = fst (o_process cmp (recs E) key pr w st) /\ tied s s' /\ (w = false -> s' = s).
  Proof.
    intros S s done A lo x rs B key pr w st E H R. pose proof (inv_ss _ _ _ H) as Hs. pose proof (inv_hdsome _ _ _ H) as Hd. pose proof (inv_chain _ _ _ H) as Ch. pose proof (i_num _ _ _ _ H) as Hn.
    unfold b_impl. rewrite (chain_at _ _ _ _ _ _ Ch). cbn [bind]. destruct (lower cmp key rs) as [l1 l2] eqn:El.
    destruct (place _ _ _ _ _ _ _ _ Hs Hd R El) as (Er & Fl & Fb & F2 & Ers & S2). fold E in Er, Hn.
    assert (Hs' : ss (A ++ (lo, x, l1 ++ l2) :: B)) by (rewrite <- Ers; exact Hs). assert (Hd' : hdsome (A ++ (lo, x, l1 ++ l2) :: B)) by (rewrite <- Ers; exact Hd).
    assert (Keep : forall st' : S, exists s' rs', let E' := A ++ (lo, x, rs') :: B in Ok (s, st') = Ok (s', st') /\ inv s' done E' /\ recs E' = recs E /\ tied s s' /\ (w = false -> s' = s)).
    { intros st'. exists s, rs. repeat split; auto; apply H. }
    (* a note about a leaf that is not empty *)
    assert (Note : forall rs1 num (b : bool) (st' : S) L, rs1 <> [] -> ss (A ++ (lo, x, rs1) :: B) -> num = Z.of_nat (length (recs (A ++ (lo, x, rs1) :: B))) -> recs (A ++ (lo, x, rs1) :: B) = L -> w = true ->
      exists s' rs', let E' := A ++ (lo, x, rs') :: B in
        (s2 <~ (if b then note (put_leaf s x (lastid None A) (hdid B None) rs1 num) x rs1 else Ok (put_leaf s x (lastid None A) (hdid B None) rs1 num)) ;; Ok (s2, st')) = Ok (s', st') /\ inv s' done E' /\ recs E' = L /\ tied s s' /\ (w = false -> s' = s)).
    { intros rs1 num b st' L N1 S1 N2 EL Ew. pose proof (put_leaf_ok s done A lo x rs B key rs1 num H R S1 N2) as I1. destruct b.
      - destruct (note_tied (put_leaf s x (lastid None A) (hdid B None) rs1 num) x rs1 N1) as (s' & -> & T & k & v & Hk & Es'). exists s', rs1. cbn [bind]. repeat split; auto; try (subst s'; eapply note_ok; eauto; fail); try apply T; try congruence.
        all: subst s'; apply (note_ok _ _ _ _ _ _ _ k v I1 Hk).
      - exists (put_leaf s x (lastid None A) (hdid B None) rs1 num), rs1. cbn [bind]. repeat split; auto; try apply I1. congruence. }
    assert (Hlt2 : forall k v r, l2 = (k, v) :: r -> ltb cmp key k = true -> Forall (fun r : rec => klt key (fst r)) l2).
    { intros k v r -> Hk. apply ltb_lt in Hk. inversion S2; subst. constructor; auto. eapply Forall_impl; [|exact H3]. intros z Hz. cbn in Hz. eapply (klt_trans cmp cmp_opp cmp_le_trans); eauto. }
    (* no such record *)
    assert (Miss : Forall (fun r : rec => klt key (fst r)) l2 ->
      exists s' rs', let E' := A ++ (lo, x, rs') :: B in
      (let '(a, st1) := on_empty pr key st in
      match a with
      | ASet v =>
          if w then
            let rs1 := l1 ++ (key, v) :: l2 in
            let s1 := put_leaf s x (lastid None A) (hdid B None) rs1 (b_num s + 1) in
            s2 <~ (if divp rs1 then note s1 x rs1 else Ok s1) ;; Ok (s2, st1)
          else Ok (s, st1)
      | _ => Ok (s, st1)
      end) = Ok (s', snd (o_process cmp (recs E) key pr w st)) /\
      inv s' done E' /\ recs E' = fst (o_process cmp (recs E) key pr w st) /\ tied s s' /\ (w = false -> s' = s)).
    { intros F3. assert (F4 : Forall (fun r : rec => klt key (fst r)) (l2 ++ recs B)) by (apply Forall_app; auto).
      assert (Of : o_find cmp key (recs E) = None) by (rewrite Er, o_find_app by auto; apply o_find_none; auto).
      unfold o_process, o_call. rewrite Of. destruct (on_empty pr key st) as [a st1]. destruct a as [| |v]; cbn [fst snd]; try (destruct w; apply Keep). destruct w; [|apply Keep]. cbv zeta.
      assert (F1 : Forall (fun r : rec => klt (fst r) key) l1) by (apply Forall_app in Fl; apply Fl).
      assert (Es : recs (A ++ (lo, x, l1 ++ (key, v) :: l2) :: B) = o_put cmp key v (recs E)). { rewrite Er, o_put_app by auto. rewrite o_put_none by auto. rewrite recs_app. cbn. rewrite <- !app_assoc. reflexivity. }
      apply Note; auto. - destruct l1; discriminate. - apply ins_ss; auto.
      - rewrite Hn, Er. len. }
    destruct l2 as [|[k v] r]; [right; apply Miss; auto|]. destruct (ltb cmp key k) eqn:Ek; [right; apply Miss; eapply Hlt2; eauto|].
    assert (Ee : cmp key k = Eq). { inversion F2; subst. cbn in H2. apply (ltb_ge cmp cmp_opp) in Ek. unfold BtreeTree.kle in *. rewrite cmp_opp in Ek. destruct (cmp key k); cbn in *; congruence. }
    assert (Of : o_find cmp key (recs E) = Some (k, v)) by (rewrite Er, o_find_app by auto; cbn; now rewrite Ee).
    unfold o_process, o_call. rewrite Of. destruct (on_full pr k v st) as [a st1]. destruct w; cbn [negb fst snd]; [|right; apply Keep].
    destruct a as [| |v1].
    - right. apply Keep.
    - cbv zeta. assert (Es : recs (A ++ (lo, x, l1 ++ r) :: B) = o_act cmp (recs E) key ARemove). { cbn [o_act]. rewrite Er, o_del_app by auto. cbn. rewrite Ee. rewrite recs_app. cbn. rewrite <- !app_assoc. reflexivity. }
      assert (Hnum : (b_num s - 1)%Z = Z.of_nat (length (recs (A ++ (lo, x, l1 ++ r) :: B)))). { rewrite Hn, Er. len. }
      assert (Hss1 : ss (A ++ (lo, x, l1 ++ r) :: B)) by (apply del_ss in Hs'; exact Hs').
      destruct (l1 ++ r) as [|e0 rr] eqn:Elr.
      + destruct (mrgp [] && negb (Nat.eqb x (b_root s))) eqn:Em.
        * unfold rec in Em |- *. rewrite Em. unfold note_del. destruct (h_strict how).
          { left. apply andb_prop in Em. destruct Em as [Em1 Em]. apply negb_true_iff, Nat.eqb_neq in Em. apply app_eq_nil in Elr. destruct Elr as [-> ->]. split; [exists (k, v); exact Ers|]. auto. }
          right. pose proof (put_leaf_ok s done A lo x rs B key [] (b_num s - 1)%Z H R Hss1 Hnum) as I1. exists (add_reorg (put_leaf s x (lastid None A) (hdid B None) [] (b_num s - 1)%Z) x k), []. cbn [bind].
          pose proof (add_reorg_its (put_leaf s x (lastid None A) (hdid B None) [] (b_num s - 1)%Z) x k) as (W1 & W2 & W3 & W4 & W5).
          split; auto. split; [|split; [exact Es|split; [repeat split; auto|discriminate]]]. apply note_at; auto. eapply (routes_rec _ _ _ _ rs); [exact Hs|rewrite Ers; apply in_or_app; right; left; reflexivity].
        * right. unfold rec in Em |- *. rewrite Em. pose proof (put_leaf_ok s done A lo x rs B key [] (b_num s - 1)%Z H R Hss1 Hnum) as I1. exists (put_leaf s x (lastid None A) (hdid B None) [] (b_num s - 1)%Z), []. cbn [bind]. repeat split; auto; try apply I1. congruence.
      + right. unfold note_del. apply Note; auto. discriminate.
    - cbv zeta. right. assert (Es : recs (A ++ (lo, x, l1 ++ (k, v1) :: r) :: B) = o_act cmp (recs E) key (ASet v1)). { cbn [o_act]. rewrite Er, o_put_app by auto. cbn. rewrite Ee. rewrite recs_app. cbn. rewrite <- !app_assoc. reflexivity. }
      assert (Hnum : b_num s = Z.of_nat (length (recs (A ++ (lo, x, l1 ++ (k, v1) :: r) :: B)))). { rewrite Hn, Er. len. }
      assert (Hss1 : ss (A ++ (lo, x, l1 ++ (k, v1) :: r) :: B)) by (eapply chg_ss; exact Hs').
      assert (Hne : l1 ++ (k, v1) :: r <> []) by (destruct l1; discriminate).
      destruct (h_check how); [|apply (Note _ _ false); auto]. destruct (blen v <? blen v1)%N; [apply Note; auto|]. destruct (blen v1 <? blen v)%N; [apply Note; auto|apply (Note _ _ false); auto].
  Qed.
End Ops.
