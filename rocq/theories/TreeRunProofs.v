(** The machine of TreeRunModel.v does what the programs do on a plain heap, whatever is saved and evicted on the way. *)
From Coq Require Import List NArith ZArith Bool Lia Arith.
Import ListNotations.
From Verif Require Import Bytes DbmModel StatusModel OmapHist BtreeModel TreePageModel TreePageProps TreeReopen TreeRunModel TreeRunHeap.
Open Scope nat_scope.

(** * The ids of pages *)
Section Ids.
  Variable ks : list bool.
  Lemma inners_S : forall y, inners_before ks (S y) = inners_before ks y + (if kind_of ks y then 1 else 0).
  Proof.
    intros y. unfold inners_before, kind_of. revert y. induction ks as [|k l IH]; intros y; [destruct y; reflexivity|]. destruct y as [|y].
    - cbn [firstn nth count_occ]. destruct k; reflexivity.
    - cbn [nth]. rewrite (firstn_cons (S y)), (firstn_cons y). cbn [count_occ]. rewrite IH. destruct (bool_dec k true); lia.
  Qed.
  Lemma inners_mono : forall y z, y <= z -> inners_before ks y <= inners_before ks z /\ inners_before ks z - inners_before ks y <= z - y.
  Proof. intros y z H. induction H as [|z H IH]; [lia|]. rewrite inners_S. destruct (kind_of ks z); lia. Qed.
  Lemma inners_le : forall y, inners_before ks y <= y.
  Proof. intros y. pose proof (inners_mono 0 y ltac:(lia)). replace (inners_before ks 0) with 0 in * by (unfold inners_before; destruct ks; reflexivity). lia. Qed.
  Lemma base_val : inner_base = 211106232532992%N. Proof. reflexivity. Qed.
  Lemma p48 : (2^48 = 281474976710656)%N. Proof. reflexivity. Qed.
  Lemma p49 : (2^49 = 562949953421312)%N. Proof. reflexivity. Qed.
  Ltac nums := unfold leaf_id, inner_id in *; cbv zeta in *; rewrite ?base_val, ?p48, ?p49 in *;
    repeat match goal with |- context [(?a <? ?b)%N] => destruct (N.ltb_spec a b) | H : context [(?a <? ?b)%N] |- _ => destruct (N.ltb_spec a b) end; try lia.
  Lemma leaf_id_inj : forall a b, leaf_id a = leaf_id b -> a = b. Proof. intros a b H. nums. Qed.
  Lemma inner_id_inj : forall a b, inner_id a = inner_id b -> a = b. Proof. intros a b H. nums. Qed.
  Lemma leaf_inner_id : forall a b, leaf_id a <> inner_id b. Proof. intros a b H. nums. Qed.
  Lemma pid_lt : forall y z, y < z -> pid ks y <> pid ks z.
  Proof.
    intros y z L E. unfold pid in E. pose proof (inners_mono (S y) z L) as M. pose proof (inners_S y) as Sy. pose proof (inners_le y). pose proof (inners_le z).
    destruct (kind_of ks y), (kind_of ks z).
    - apply inner_id_inj in E. lia.
    - symmetry in E. now apply leaf_inner_id in E.
    - now apply leaf_inner_id in E.
    - apply leaf_id_inj in E. lia.
  Qed.
  Lemma pid_inj : forall y z, pid ks y = pid ks z -> y = z.
  Proof. intros y z E. destruct (Nat.lt_trichotomy y z) as [L|[L|L]]; auto; exfalso; [exact (pid_lt y z L E)|exact (pid_lt z y L (eq_sym E))]. Qed.
  Lemma pid_pos : forall y, pid ks y <> 0%N.
  Proof. intros y. unfold pid. destruct (kind_of ks y); nums. Qed.
  Lemma unleaf_id : forall k, unleaf (leaf_id k) = k.
  Proof.
    intros k. unfold unleaf, leaf_id. cbv zeta. rewrite base_val, p49. destruct (N.ltb_spec (N.of_nat k + 1) 211106232532992).
    - destruct (N.ltb_spec (N.of_nat k + 1) 211106232532992); lia.
    - destruct (N.ltb_spec (562949953421312 + 2 * (N.of_nat k + 1)) 211106232532992); [lia|].
      replace (562949953421312 + 2 * (N.of_nat k + 1) - 562949953421312)%N with ((N.of_nat k + 1) * 2)%N by lia. rewrite N.div_mul by lia. lia.
  Qed.
  Lemma unpid_pid : forall y, unpid ks (pid ks y) = y.
  Proof.
    intros y. unfold unpid. destruct (find _ _) as [z|] eqn:E.
    - apply find_some in E. destruct E as [_ E]. apply N.eqb_eq in E. now apply pid_inj.
    - destruct (Nat.lt_ge_cases y (length ks)) as [L|L].
      + exfalso. assert (I : In y (seq 0 (length ks))) by (apply in_seq; lia). apply (find_none _ _ E) in I. now rewrite N.eqb_refl in I.
      + unfold pid. unfold kind_of. rewrite nth_overflow by lia. rewrite unleaf_id. unfold inners_before at 1 2. rewrite !firstn_all2 by lia.
        assert (count_occ bool_dec ks true <= y). { pose proof (inners_le (length ks)) as Q. unfold inners_before in Q. rewrite firstn_all in Q. lia. }
        lia.
  Qed.
  Lemma of_page_of : forall n, of_page ks (page_of (pid ks) n) = n.
  Proof.
    assert (O : forall o, ounpid ks (oid (pid ks) o) = o). { intros [x|]; cbn; auto. unfold ounpid. destruct (N.eqb_spec (pid ks x) 0) as [E|_]; [now apply pid_pos in E|]. now rewrite unpid_pid. }
    intros [p q rs|h ls]; cbn; rewrite ?O, ?unpid_pid; auto. f_equal. induction ls as [|[k x] ls IH]; cbn; auto. now rewrite unpid_pid, IH.
  Qed.
  (** The heap [h] as pages. *)
  Definition paged (h : BtreeModel.heap) (g : heap) : Prop := forall y, g (pid ks y) = option_map (page_of (pid ks)) (h y).
  Lemma paged_upd : forall h g x n, paged h g -> paged (updn h x n) (upd g (pid ks x) (option_map (page_of (pid ks)) n)).
  Proof.
    intros h g x n H y. unfold upd, updn. destruct (N.eqb_spec (pid ks y) (pid ks x)) as [E|E].
    - apply pid_inj in E. subst. now rewrite Nat.eqb_refl.
    - destruct (Nat.eqb_spec y x); [congruence|apply H].
  Qed.

  (** The nodes that a program creates are of the kinds that [ks] says. *)
  Fixpoint follows {A} (p : prog A) (h : BtreeModel.heap) (c : id) : Prop :=
    match p with
    | Ret _ | Bad _ => True
    | Load x k => match h x with Some n => follows (k n) h c | None => True end
    | Write x n k => follows k (updn h x (Some n)) c
    | New n k => kind_of ks c = is_inn n /\ follows (k c) (updn h c (Some n)) (S c)
    | Drop x k => follows k (updn h x None) c
    | Size k => follows (k c) h c
    end.
End Ids.
Lemma kinds_exist : forall A (p : prog A) h c pre, length pre = c -> exists l, follows (pre ++ l) p h c.
Proof.
  intros A p. induction p as [a|e|x k IH|x n k IH|n k IH|x k IH|k IH]; intros h c pre L; cbn [follows].
  - exists []. exact I.
  - exists []. exact I.
  - destruct (h x) as [n|]; [apply IH; auto|exists []; exact I].
  - apply IH; auto.
  - destruct (IH c (updn h c (Some n)) (S c) (pre ++ [is_inn n])) as [l Hl]; [rewrite app_length; cbn; lia|]. exists (is_inn n :: l). rewrite <- app_assoc in Hl. split; [|exact Hl].
    unfold kind_of. rewrite app_nth2 by lia. rewrite L, Nat.sub_diag. reflexivity.
  - apply IH; auto.
  - apply IH; auto.
Qed.

(** * The operations *)
(** What an operation puts fits in a page. *)
Definition fit_op (o : cop) : Prop := match o with CWrite x n | CNew x n => fits x n | _ => True end.
Lemma go_c : forall os s, go cstate c_step os s = c_run os s.
Proof. reflexivity. Qed.
Lemma hrun_app : forall a g l g1 b l2 g2, hrun a g l g1 -> hrun b g1 l2 g2 -> hrun (a ++ b) g (l ++ l2) g2.
Proof. intros a g l g1 b l2 g2 H H2. induction H; cbn; auto. econstructor; eauto. Qed.
Lemma flush_ok : forall sched t s g, sim s g -> exists l s1, go cstate c_step (flushes sched t) s = POk (l, s1) /\ sim s1 g /\ hrun (flushes sched t) g l g.
Proof.
  intros sched t s g. unfold flushes. generalize (sched t). intros bs. revert s. induction bs as [|[b x] bs IH]; intros s H; cbn [map go].
  - exists [], s. split; auto. split; auto. constructor.
  - assert (St : hstep (flush_op (b, x)) g None g) by (unfold flush_op; cbn; destruct b; constructor). destruct (step_sim _ s g None g H St) as (s1 & E & S1). rewrite E. cbn [pbind].
    destruct (IH s1 S1) as (l & s2 & E2 & S2 & R2). rewrite E2. cbn [pbind]. exists (None :: l), s2. split; auto. split; auto. econstructor; eauto.
Qed.

Section Run.
  Variable ks : list bool.
  Variable sched : nat -> list (bool * N).
  Notation run := (mi ks cstate c_step sched).
  Lemma act_ok : forall t o s g a g', sim s g -> hstep o g a g' -> exists s', act cstate c_step sched t o s = POk (a, s') /\ sim s' g' /\ exists l, hrun (flushes sched t ++ [o]) g (l ++ [a]) g'.
  Proof.
    intros t o s g a g' H St. destruct (flush_ok sched t s g H) as (l & s1 & E & S1 & R). unfold act. rewrite E. cbn [pbind]. destruct (step_sim o s1 g a g' S1 St) as (s2 & E2 & S2).
    exists s2. split; auto. split; auto. exists l. eapply hrun_app; [exact R|]. econstructor; [exact St|constructor].
  Qed.
  Definition ends {A} (r : res (A * BtreeModel.heap * id)) (out : mout cstate A) (g' : heap) : Prop :=
    match r with
    | Ok (a, h', c') => exists t' s', out = Fine a c' t' s' /\ sim s' g' /\ paged ks h' g'
    | Ub e => out = Wrong e
    end.
  Lemma run_ok : forall A (p : prog A) h c t s g, paged ks h g -> sim s g -> follows ks p h c -> hi p h c <> Ub BadAccess -> Forall fit_op (snd (run p c t s)) ->
    exists l g', hrun (snd (run p c t s)) g l g' /\ ends (hi p h c) (fst (run p c t s)) g'.
  Proof.
    intros A p. induction p as [a|e|x k IH|x n k IH|n k IH|x k IH|k IH]; intros h c t s g P H Fo NB; cbn [hi follows mi] in *; cbv zeta; cbn [fst snd]; intros Fi.
    - exists [], g. split; [constructor|]. cbn. eauto.
    - exists [], g. split; [constructor|]. reflexivity.
    - destruct (h x) as [n|] eqn:Ex; [|congruence]. assert (G : g (pid ks x) = Some (page_of (pid ks) n)) by (rewrite P, Ex; reflexivity).
      destruct (act_ok t _ s g _ _ H (hs_load _ _ _ G)) as (s1 & E & S1 & l0 & R0). rewrite E in *. rewrite of_page_of in *.
      destruct (IH n h c (S t) s1 g P S1 Fo NB) as (l & g' & R & En). { apply Forall_app in Fi. destruct Fi as [_ Fi]. now inversion Fi. }
      exists ((l0 ++ [Some (page_of (pid ks) n)]) ++ l), g'. split; auto. change (flushes sched t ++ CLoad (pid ks x) :: snd (run (k n) c (S t) s1)) with (flushes sched t ++ [CLoad (pid ks x)] ++ snd (run (k n) c (S t) s1)). rewrite app_assoc. eapply hrun_app; eauto.
    - destruct (h x) as [m|] eqn:Ex; [|congruence]. destruct (Bool.eqb _ _); [|congruence]. assert (G : g (pid ks x) <> None) by (rewrite P, Ex; discriminate).
      assert (Ft : fits (pid ks x) (page_of (pid ks) n)). { apply Forall_app in Fi. destruct Fi as [_ Fi]. inversion Fi; auto. }
      destruct (act_ok t _ s g _ _ H (hs_write _ _ _ G Ft)) as (s1 & E & S1 & l0 & R0). rewrite E in *.
      destruct (IH (updn h x (Some n)) c (S t) s1 _ (paged_upd ks h g x (Some n) P) S1 Fo NB) as (l & g' & R & En). { apply Forall_app in Fi. destruct Fi as [_ Fi]. now inversion Fi. }
      exists ((l0 ++ [None]) ++ l), g'. split; auto. match goal with |- hrun (?a ++ ?o :: ?b) _ _ _ => change (a ++ o :: b) with (a ++ [o] ++ b) end. rewrite app_assoc. eapply hrun_app; eauto.
    - destruct (h c) as [m|] eqn:Ex; [congruence|]. destruct Fo as [Fk Fo]. rewrite Fk, Bool.eqb_reflx in *. cbv zeta in *. cbn [fst snd] in *. assert (G : g (pid ks c) = None) by (rewrite P, Ex; reflexivity).
      assert (Ft : fits (pid ks c) (page_of (pid ks) n)). { apply Forall_app in Fi. destruct Fi as [_ Fi]. inversion Fi; auto. }
      destruct (act_ok t _ s g _ _ H (hs_new _ _ _ G Ft)) as (s1 & E & S1 & l0 & R0). rewrite E in *.
      destruct (IH c (updn h c (Some n)) (S c) (S t) s1 _ (paged_upd ks h g c (Some n) P) S1 Fo NB) as (l & g' & R & En). { apply Forall_app in Fi. destruct Fi as [_ Fi]. now inversion Fi. }
      exists ((l0 ++ [None]) ++ l), g'. split; auto. match goal with |- hrun (?a ++ ?o :: ?b) _ _ _ => change (a ++ o :: b) with (a ++ [o] ++ b) end. rewrite app_assoc. eapply hrun_app; eauto.
    - destruct (h x) as [m|] eqn:Ex; [|congruence]. assert (G : g (pid ks x) <> None) by (rewrite P, Ex; discriminate).
      destruct (act_ok t _ s g _ _ H (hs_remove _ _ G)) as (s1 & E & S1 & l0 & R0). rewrite E in *.
      destruct (IH (updn h x None) c (S t) s1 _ (paged_upd ks h g x None P) S1 Fo NB) as (l & g' & R & En). { apply Forall_app in Fi. destruct Fi as [_ Fi]. now inversion Fi. }
      exists ((l0 ++ [None]) ++ l), g'. split; auto. match goal with |- hrun (?a ++ ?o :: ?b) _ _ _ => change (a ++ o :: b) with (a ++ [o] ++ b) end. rewrite app_assoc. eapply hrun_app; eauto.
    - apply IH; auto.
  Qed.
End Run.

(** * From one kind of storage to another *)
Section Move.
  Variable ks : list bool.
  Variable sched : nat -> list (bool * N).
  Variables (S1 S2 : Type) (stp1 : cop -> S1 -> pres (option pnode * S1)) (stp2 : cop -> S2 -> pres (option pnode * S2)).
  Lemma go_split : forall S (stp : cop -> S -> pres (option pnode * S)) a o b s l s', go S stp (a ++ o :: b) s = POk (l, s') ->
    exists l1 x l2 sa sb, go S stp a s = POk (l1, sa) /\ stp o sa = POk (x, sb) /\ go S stp b sb = POk (l2, s') /\ l = l1 ++ x :: l2 /\ length l1 = length a.
  Proof.
    intros S stp. induction a as [|y a IH]; intros o b s l s' E; cbn [app go] in *.
    - destruct (stp o s) as [[x s1]| |] eqn:E1; cbn [pbind] in E; try discriminate. destruct (go S stp b s1) as [[l2 s2]| |] eqn:E2; cbn [pbind] in E; try discriminate. injection E as <- <-.
      exists [], x, l2, s, s1. repeat split; auto.
    - destruct (stp y s) as [[z s1]| |] eqn:E1; cbn [pbind] in E; try discriminate. destruct (go S stp (a ++ o :: b) s1) as [[l2 s2]| |] eqn:E2; cbn [pbind] in E; try discriminate. injection E as <- <-.
      destruct (IH _ _ _ _ _ E2) as (l1 & x & l3 & sa & sb & A1 & A2 & A3 & A4 & A5). exists (z :: l1), x, l3, sa, sb. cbn [pbind]. rewrite A1. cbn. subst. auto 10.
  Qed.
  Definition moved_to {A} (out : mout S1 A) (s : S2) : mout S2 A := match out with Fine a c t _ => Fine a c t s | Wrong e => Wrong e | Failed => Failed end.
  Lemma app_same : forall X (a b c d : list X) x y, length a = length c -> a ++ x :: b = c ++ y :: d -> a = c /\ x = y /\ b = d.
  Proof.
    intros X. induction a as [|z a IH]; intros b [|w c] d x y L E; cbn in *; try discriminate.
    - injection E as <- <-. auto.
    - injection E as <- E. injection L as L. destruct (IH _ _ _ _ _ L E) as (-> & -> & ->). auto.
  Qed.
  Ltac stepm IH o E1 E2 :=
    apply go_split in E1; destruct E1 as (la & xa & lb & sa & sb & A1 & A2 & A3 & A4 & A5); apply go_split in E2; destruct E2 as (lc & xc & ld & sc & sd & C1 & C2 & C3 & C4 & C5);
    subst; match goal with H : _ ++ _ = _ ++ _ |- _ => apply app_same in H; [destruct H as (<- & <- & <-)|congruence] end;
    unfold act in *; rewrite A1 in *; rewrite C1 in *; cbn [pbind] in *; rewrite A2 in *; rewrite C2 in *.
  Lemma mi_moves : forall A (p : prog A) c t s1 s2 l s1' s2', fst (mi ks S1 stp1 sched p c t s1) <> Failed ->
    go S1 stp1 (snd (mi ks S1 stp1 sched p c t s1)) s1 = POk (l, s1') -> go S2 stp2 (snd (mi ks S1 stp1 sched p c t s1)) s2 = POk (l, s2') ->
    mi ks S2 stp2 sched p c t s2 = (moved_to (fst (mi ks S1 stp1 sched p c t s1)) s2', snd (mi ks S1 stp1 sched p c t s1)).
  Proof.
    intros A p. induction p as [a|e|x k IH|x n k IH|n k IH|x k IH|k IH]; intros c t s1 s2 l s1' s2' NF E1 E2; cbn [mi] in *; cbv zeta in *; cbn [fst snd] in *.
    - cbn in E1, E2. injection E1 as <- <-. injection E2 as <-. reflexivity.
    - reflexivity.
    - stepm IH o E1 E2. destruct xa as [nn|]; cbn [fst snd] in *; [|congruence]. rewrite (IH _ c (S t) sb sd lb s1' s2' NF A3 C3). reflexivity.
    - stepm IH o E1 E2. cbn [fst snd] in *. rewrite (IH c (S t) sb sd lb s1' s2' NF A3 C3). reflexivity.
    - destruct (Bool.eqb _ _); cbn [fst snd] in *; [|congruence]. stepm IH o E1 E2. cbn [fst snd] in *. rewrite (IH c (S c) (S t) sb sd lb s1' s2' NF A3 C3). reflexivity.
    - stepm IH o E1 E2. cbn [fst snd] in *. rewrite (IH c (S t) sb sd lb s1' s2' NF A3 C3). reflexivity.
    - eapply IH; eauto.
  Qed.
End Move.
