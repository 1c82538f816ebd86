(** The leaves of the B+ tree as pages of an ordered map: what is done to one page, and what that is to the whole map. *)
From Coq Require Import List NArith ZArith Bool Lia Arith Permutation Sorting.Sorted.
Import ListNotations.
From Verif Require Import Bytes DbmModel OmapSpec OmapHist BtreeModel BtreeTree BtreeSort BtreeUp BtreeInv BtreeMerge BtreeOps BtreeRun.

(** A shape is the lower bounds and the names of the leaves; [m] gives their records. *)
Definition shape := list (option bytes * id).
Definition fill (Sh : shape) (m : id -> list rec) : list ent := map (fun e => (e, m (snd e))) Sh.
Definition updm (m : id -> list rec) (y : id) (rs : list rec) : id -> list rec := fun z => if Nat.eqb z y then rs else m z.
Lemma updm_same m y rs : updm m y rs y = rs. Proof. unfold updm. now rewrite Nat.eqb_refl. Qed.
Lemma updm_other m y rs z : z <> y -> updm m y rs z = m z. Proof. intros H. unfold updm. now rewrite (proj2 (Nat.eqb_neq _ _) H). Qed.
Lemma fill_app A B m : fill (A ++ B) m = fill A m ++ fill B m. Proof. apply map_app. Qed.
Lemma fill_ext Sh m m' : (forall z, In z (map snd Sh) -> m z = m' z) -> fill Sh m = fill Sh m'.
Proof. intros H. apply map_ext_in. intros e He. f_equal. apply H. now apply in_map. Qed.
Lemma fill_ids Sh m : map eid (fill Sh m) = map snd Sh. Proof. unfold fill. rewrite map_map. apply map_ext. now intros [lo y]. Qed.
Lemma nodup_mid {X} (A B : list X) y : NoDup (A ++ y :: B) -> ~ In y A /\ ~ In y B.
Proof. intros H. apply NoDup_remove_2 in H. split; intros I; apply H; apply in_or_app; auto. Qed.
Lemma fill_mid A lo y B m rs : NoDup (map snd (A ++ (lo, y) :: B)) -> fill (A ++ (lo, y) :: B) (updm m y rs) = fill A m ++ (lo, y, rs) :: fill B m.
Proof.
  intros H. rewrite map_app in H. cbn in H. destruct (nodup_mid _ _ _ H) as [N1 N2]. rewrite fill_app. cbn [fill map snd]. rewrite updm_same.
  f_equal; [|f_equal]; apply fill_ext; intros z Hz; apply updm_other; intros ->; contradiction.
Qed.
Lemma fill_at A lo y B m : fill (A ++ (lo, y) :: B) m = fill A m ++ (lo, y, m y) :: fill B m. Proof. rewrite fill_app. reflexivity. Qed.
Lemma shape_at (Sh : shape) y : In y (map snd Sh) -> exists A lo B, Sh = A ++ (lo, y) :: B.
Proof. intros H. apply in_map_iff in H. destruct H as ([lo z] & <- & H). apply in_split in H. destruct H as (A & B & ->). eauto. Qed.
Definition page_of (E : list ent) (y : id) : list rec := match find (fun e => Nat.eqb (eid e) y) E with Some e => ers e | None => [] end.
Lemma fill_of E : NoDup (map eid E) -> E = fill (map fst E) (page_of E).
Proof.
  intros N. induction E as [|[[lo y] rs] E IH]; [reflexivity|]. cbn [map] in N. inversion N as [|? ? N1 N2]; subst. cbn [map fst fill snd]. f_equal.
  - unfold page_of. cbn. now rewrite Nat.eqb_refl.
  - rewrite IH at 1 by exact N2. apply fill_ext. intros z Hz. unfold page_of. cbn [find]. cbn [eid fst snd] in *.
    destruct (Nat.eqb_spec y z) as [->|]; [|reflexivity]. exfalso. apply N1. rewrite map_map in Hz. rewrite (map_ext _ eid) in Hz; [exact Hz|]. now intros [[? ?] ?].
Qed.

Section Pure.
  Variable cmp : bytes -> bytes -> comparison.
  Hypothesis cmp_opp : forall a b, cmp b a = CompOpp (cmp a b).
  Hypothesis cmp_le_trans : forall a b c, cmp a b <> Gt -> cmp b c <> Gt -> cmp a c <> Gt.
  Notation ss := (ss cmp). Notation klt := (klt cmp). Notation kle := (kle cmp). Notation routes := (routes cmp). Notation routes_at := (routes_at cmp).

  Lemma routes_at_fill A lo B k m m' : routes_at (fill A m) lo (fill B m) k -> routes_at (fill A m') lo (fill B m') k.
  Proof.
    assert (W : forall Sh k, In (BtreeSort.MS k) (marks (fill Sh m')) -> In (BtreeSort.MS k) (marks (fill Sh m))).
    { intros Sh k0 H. apply in_marks_sep in H. destruct H as (e & H & H2). apply in_marks_sep. unfold fill in H. apply in_map_iff in H. destruct H as (e0 & <- & H). exists (e0, m (snd e0)). split; [now apply (in_map (fun e => (e, m (snd e))))|exact H2]. }
    intros (R1 & R2 & R3). split; [intros a Ha; apply R1, W, Ha|]. split; [exact R2|intros b Hb; apply R3, W, Hb].
  Qed.
  Lemma routes_fill Sh k y m m' : routes (fill Sh m) k y -> routes (fill Sh m') k y.
  Proof.
    intros (A & lo & rs & B & E & R). unfold fill in E. apply map_eq_app in E. destruct E as (A0 & X & -> & <- & E). destruct X as [|[lo0 y0] B0]; [discriminate|]. cbn [map] in E. injection E as E0 E1 E2 E3. subst.
    exists (fill A0 m'), lo, (m' y), (fill B0 m'). split; [apply fill_at|]. eapply routes_at_fill. exact R.
  Qed.
  Lemma routes_mid A lo y B k m : NoDup (map snd (A ++ (lo, y) :: B)) -> routes (fill (A ++ (lo, y) :: B) m) k y -> routes_at (fill A m) lo (fill B m) k.
  Proof.
    intros N (A1 & lo1 & rs1 & B1 & E & R). rewrite fill_at in E.
    assert (N' : NoDup (map eid (fill A m ++ (lo, y, m y) :: fill B m))) by (rewrite <- fill_at, fill_ids; exact N).
    destruct (nodup_split _ _ _ _ _ _ _ _ _ _ N' eq_refl E) as (-> & -> & _ & ->). exact R.
  Qed.

  (** * A call on one page and on the whole map *)
  Lemma find_tail k rs R : Forall (fun r : rec => klt k (fst r)) R -> o_find cmp k (rs ++ R) = o_find cmp k rs.
  Proof. intros H. induction rs as [|[k1 v1] rs IH]; cbn; [apply o_find_none; auto|]. rewrite IH. reflexivity. Qed.
  Lemma put_tail k v rs R : Forall (fun r : rec => klt k (fst r)) R -> o_put cmp k v (rs ++ R) = o_put cmp k v rs ++ R.
  Proof. intros H. induction rs as [|[k1 v1] rs IH]; cbn; [apply o_put_none; auto|]. destruct (cmp k k1); auto. now rewrite IH. Qed.
  Lemma del_tail k rs R : Forall (fun r : rec => klt k (fst r)) R -> o_del cmp k (rs ++ R) = o_del cmp k rs ++ R.
  Proof. intros H. induction rs as [|[k1 v1] rs IH]; cbn; [apply o_del_none; auto|]. destruct (cmp k k1); auto; now rewrite IH. Qed.
  Lemma process_local S P rs R k (p : proc S) w st : Forall (fun r : rec => klt (fst r) k) P -> Forall (fun r : rec => klt k (fst r)) R ->
    o_process cmp (P ++ rs ++ R) k p w st = (P ++ fst (o_process cmp rs k p w st) ++ R, snd (o_process cmp rs k p w st)).
  Proof.
    intros HP HR. unfold o_process, o_call. rewrite (o_find_app cmp cmp_opp) by exact HP. rewrite (find_tail _ _ _ HR).
    destruct (o_find cmp k rs) as [[k1 v]|]; [destruct (on_full p k1 v st) as [a s1]|destruct (on_empty p k st) as [a s1]]; cbn [fst snd]; f_equal; (destruct w; [|reflexivity]); destruct a; cbn [o_act]; try reflexivity;
      rewrite ?(o_del_app cmp cmp_opp), ?(o_put_app cmp cmp_opp), ?del_tail, ?put_tail by assumption; reflexivity.
  Qed.
  Section Page.
    Variables (A : shape) (lo : option bytes) (y : id) (B : shape) (m : id -> list rec) (k : bytes).
    Let Sh := A ++ (lo, y) :: B.
    Hypothesis nodup : NoDup (map snd Sh).
    Hypothesis sorted : ss (fill Sh m).
    Hypothesis heads : hdsome (fill Sh m).
    Hypothesis route : routes (fill Sh m) k y.
    Lemma page_process S (p : proc S) w st : o_process cmp (recs (fill Sh m)) k p w st =
      (recs (fill Sh (updm m y (fst (o_process cmp (m y) k p w st)))), snd (o_process cmp (m y) k p w st)).
    Proof.
      pose proof (routes_mid _ _ _ _ _ _ nodup route) as R. unfold Sh in *. rewrite (fill_mid _ _ _ _ _ _ nodup). rewrite fill_at in *. rewrite !(recs_mid).
      apply process_local; apply Forall_forall; intros r Hr.
      - eapply (routes_before cmp cmp_opp cmp_le_trans); eauto.
      - eapply (routes_after cmp cmp_opp cmp_le_trans); eauto.
    Qed.
    Lemma page_ss S (p : proc S) w st : ss (fill Sh (updm m y (fst (o_process cmp (m y) k p w st)))).
    Proof.
      pose proof (routes_mid _ _ _ _ _ _ nodup route) as R. unfold Sh in *. rewrite (fill_mid _ _ _ _ _ _ nodup). rewrite fill_at in *.
      assert (K : forall rs', rs' = m y -> ss (fill A m ++ (lo, y, rs') :: fill B m)) by (intros rs' ->; exact sorted).
      destruct (lower cmp k (m y)) as [l1 l2] eqn:El. destruct (place cmp cmp_opp cmp_le_trans _ _ _ _ _ _ _ _ sorted heads R El) as (_ & Fl & _ & F2 & Ers & S2). apply Forall_app in Fl. destruct Fl as [_ F1].
      assert (Hs' : ss (fill A m ++ (lo, y, l1 ++ l2) :: fill B m)) by (rewrite <- Ers; exact sorted). assert (Hd' : hdsome (fill A m ++ (lo, y, l1 ++ l2) :: fill B m)) by (rewrite <- Ers; exact heads).
      unfold o_process, o_call. rewrite Ers, (o_find_app cmp cmp_opp) by exact F1.
      assert (MISS : Forall (fun r : rec => klt k (fst r)) l2 -> ss (fill A m ++ (lo, y, fst (let '(a, s') := match o_find cmp k l2 with Some (k1, v) => on_full p k1 v st | None => on_empty p k st end in
         (if w then match a with ARemove => match o_find cmp k l2 with Some _ => o_act cmp (l1 ++ l2) k a | None => l1 ++ l2 end | _ => o_act cmp (l1 ++ l2) k a end else l1 ++ l2, s'))) :: fill B m)).
      { intros F3. rewrite (o_find_none cmp) by exact F3. destruct (on_empty p k st) as [a s']. cbn [fst]. destruct w; [|exact Hs']. destruct a; cbn [o_act]; try exact Hs'.
        rewrite (o_put_app cmp cmp_opp) by exact F1. rewrite (o_put_none cmp) by exact F3. apply (ins_ss cmp cmp_opp cmp_le_trans); auto. }
      destruct l2 as [|[k1 v1] r]; [apply MISS; constructor|]. destruct (cmp k k1) eqn:Ek.
      - cbn [o_find]. rewrite Ek. destruct (on_full p k1 v1 st) as [a s']. cbn [fst]. destruct w; [|exact Hs']. destruct a; cbn [o_act]; try exact Hs'.
        + rewrite (o_del_app cmp cmp_opp) by exact F1. cbn [o_del]. rewrite Ek. eapply del_ss. exact Hs'.
        + rewrite (o_put_app cmp cmp_opp) by exact F1. cbn [o_put]. rewrite Ek. eapply chg_ss. exact Hs'.
      - apply MISS. inversion S2; subst. constructor; [exact Ek|]. eapply Forall_impl; [|eassumption]. intros z Hz. cbn in Hz. eapply (klt_trans cmp cmp_opp cmp_le_trans); eauto.
      - inversion F2; subst. exfalso. cbn in *. unfold BtreeTree.kle in *. congruence.
    Qed.
  End Page.

  (** * All the records of one page, in order *)
  Fixpoint keys_run {S} (keys : list bytes) (rs : list rec) (p : proc S) (st : S) : list rec * S :=
    match keys with [] => (rs, st) | k :: r => let '(rs1, st1) := o_process cmp rs k p true st in keys_run r rs1 p st1 end.
  Lemma keys_each S (p : proc S) Q : forall P st, ascending cmp (P ++ Q) -> keys_run (map fst Q) (P ++ Q) p st = (P ++ fst (o_each Q p true st), snd (o_each Q p true st)).
  Proof.
    induction Q as [|[k v] Q IH]; intros P st H; cbn [map fst keys_run].
    - cbn. reflexivity.
    - rewrite (o_process_at cmp cmp_opp) by exact H. change ((k, v) :: Q) with ([(k, v)] ++ Q). rewrite o_each_app. destruct (o_each [(k, v)] p true st) as [a' s1] eqn:Ea. cbn [fst snd]. rewrite app_assoc, IH.
      + destruct (o_each Q p true s1) as [b' s2]. cbn [fst snd]. now rewrite <- app_assoc.
      + assert (SB : a' = [] \/ exists v', a' = [(k, v')]). { cbn in Ea. destruct (on_full p k v st) as [[| |v1] s2]; injection Ea as <- _; eauto. }
        unfold ascending in *. destruct SB as [->|[v' ->]].
        * rewrite app_nil_r. apply SS_app in H. destruct H as (H1 & H2 & H3). apply SS_app. inversion H2; subst. repeat split; auto. intros; apply H3; cbn; auto.
        * rewrite <- app_assoc. apply SS_app in H. destruct H as (H1 & H2 & H3). apply SS_app. repeat split; auto; [|intros a b Ha [<-|Hb]; [apply (H3 a (k, v)); cbn; auto|apply H3; cbn; auto]].
          cbn [app]. inversion H2; subst. constructor; auto.
  Qed.
End Pure.
