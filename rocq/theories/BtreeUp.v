(** The loops of DivideNodes and MergeNodes over the inner nodes keep the sequence of leaves and separators. *)
From Coq Require Import List NArith ZArith Bool Lia Arith Permutation Sorting.Sorted.
Import ListNotations.
From Verif Require Import Bytes DbmModel BtreeModel BtreeTree BtreeSort.

Lemma hm_upd : forall h l x n, hm h l -> ~ In x (map fst l) -> hm (updn h x n) l.
Proof. intros h l x n H N. apply (hm_frame h); auto. intros y Hy. apply updn_neq. intros ->. auto. Qed.
Lemma nodup_perm : forall (a b c : list id), Permutation a b -> NoDup (a ++ c) -> NoDup (b ++ c).
Proof. intros a b c P H. eapply Permutation_NoDup; [|exact H]. now apply Permutation_app_tail. Qed.
Lemma fleft_keys : forall s f h t k c, In (k, c) (fleft f h) -> In (MS k) (marks (fpre s f ++ items (flo s f) t)).
Proof.
  intros s [x l|x t0 l1 k0 l2] h t k c H; cbn in H; [destruct H|]. apply in_marks_sep. cbn. apply in_app_or in H. destruct H as [H|[H|[]]].
  - apply in_map_iff in H. destruct H as ([k1 t1] & E & H). cbn in E. inversion E; subst. destruct (items_hd t1 (Some k)) as (y & rs & r & E2).
    exists (Some k, y, rs). split; auto. apply in_or_app. left. apply in_or_app. right. apply in_flat_map. exists (k, t1). split; auto. cbn. rewrite E2. cbn. auto.
  - inversion H; subst. destruct (items_hd t (Some k)) as (y & rs & r & E2). exists (Some k, y, rs). split; auto. apply in_or_app. right. rewrite E2. cbn. auto.
Qed.
Lemma fright_keys : forall f k c, In (k, c) (fright f) -> In (MS k) (marks (fpost f)).
Proof.
  intros f k c H. unfold fright, fpost in *. apply in_map_iff in H. destruct H as ([k1 t1] & E & H). cbn in E. inversion E; subst. destruct (items_hd t1 (Some k)) as (y & rs & r & E2).
  apply in_marks_sep. exists (Some k, y, rs). split; auto. apply in_flat_map. exists (k, t1). split; auto. cbn. rewrite E2. cbn. auto.
Qed.
Lemma plug2_kids : forall f t k t2, exists c0 L, plug2 f t k t2 = TI (fid f) c0 L /\ rid c0 = fheir f (rid t) /\ lnk L = flinks2 f (rid t) k (rid t2).
Proof.
  intros [x l|x t0 l1 k0 l2] t k t2; cbn.
  - exists t, ((k, t2) :: l). auto.
  - exists t0, (l1 ++ (k0, t) :: (k, t2) :: l2). repeat split. rewrite lnk_app. unfold flinks2, fleft, fright. cbn. now rewrite <- app_assoc.
Qed.

Section Up.
  Variable cmp : bytes -> bytes -> comparison.
  Hypothesis cmp_opp : forall a b, cmp b a = CompOpp (cmp a b).
  Hypothesis cmp_le_trans : forall a b c, cmp a b <> Gt -> cmp b c <> Gt -> cmp a c <> Gt.
  Notation klt := (klt cmp). Notation kle := (kle cmp). Notation ss := (ss cmp). Notation mlt := (mlt cmp).
  Variable max_branches : nat.

  Lemma add_link_at : forall a b k c, (forall k1 c1, In (k1, c1) a -> klt k1 k) -> (forall k1 c1, In (k1, c1) b -> klt k k1) -> add_link cmp (a ++ b) k c = a ++ (k, c) :: b.
  Proof.
    intros a b k c Ha Hb. unfold add_link, upper. rewrite split_at_eq; auto.
    - apply Forall_forall. intros [k1 c1] H. cbn. specialize (Ha _ _ H). apply (klt_le cmp) in Ha. apply (ltb_ge cmp cmp_opp) in Ha. now rewrite Ha.
    - destruct b as [|[k1 c1] b]; auto. specialize (Hb k1 c1 (or_introl eq_refl)). apply (ltb_lt cmp) in Hb. now rewrite Hb.
  Qed.
  Lemma add_links : forall r a, StronglySorted (fun u v : bytes * id => klt (fst u) (fst v)) (a ++ r) -> fold_left (fun l kc => add_link cmp l (fst kc) (snd kc)) r a = a ++ r.
  Proof.
    induction r as [|[k c] r IH]; intros a H; cbn. - now rewrite app_nil_r.
    - pose proof H as H0. apply SS_app in H0. destruct H0 as (_ & _ & H0). replace (add_link cmp a k c) with (a ++ [(k, c)]).
      + rewrite IH; rewrite <- app_assoc; auto.
      + rewrite <- (app_nil_r a) at 2. rewrite add_link_at; auto. * intros k1 c1 H1. apply (H0 (k1, c1) (k, c)); cbn; auto. * intros ? ? [].
  Qed.
  (** The keys of the links of a node increase. *)
  Lemma kids_sorted : forall s x c0 L, ss (items s (TI x c0 L)) -> StronglySorted (fun u v : bytes * id => klt (fst u) (fst v)) (lnk L).
  Proof.
    intros s x c0 L H. cbn in H. unfold BtreeSort.ss in H. rewrite marks_app in H. apply SS_app in H. destruct H as (_ & H & _). fold (fitems L) in H.
    induction L as [|[k t] L IH]; cbn; [constructor|]. cbn in H. fold (fitems L) in H. rewrite marks_app in H. apply SS_app in H. destruct H as (H1 & H2 & H3). constructor; auto.
    apply Forall_forall. intros [k1 c1] Hk. cbn. specialize (H3 (MS k) (MS k1)). cbn in H3. apply H3.
    - destruct (items_hd t (Some k)) as (y & rs & r & E). rewrite E. rewrite marks_cons. cbn. auto.
    - apply (fright_keys (FH x L) k1 c1). exact Hk.
  Qed.

  Lemma div_up_ok : forall p n h fresh level root tl tr key lids it,
    it = ppre None p ++ items (plo None p) tl ++ items (Some key) tr ++ ppost p ->
    ss it -> dep n tl -> dep n tr -> pdep n p -> level = S (n + length p) -> root = rid (plugs p tl) ->
    hm h (inners tl ++ inners tr ++ pinn p (rid tl)) ->
    NoDup (map fst (inners tl ++ inners tr ++ pinn p (rid tl)) ++ lids) ->
    Forall (fun y => y < fresh) (map fst (inners tl ++ inners tr ++ pinn p (rid tl)) ++ lids) ->
    exists h' fresh' level' root' T, div_up cmp max_branches (map fid p) h fresh level root (rid tl) (rid tr) key = Ok (h', fresh', level', root') /\
      rid T = root' /\ items None T = it /\ 1 <= level' /\ dep (level' - 1) T /\ hm h' (inners T) /\
      NoDup (map fst (inners T) ++ lids) /\ Forall (fun y => y < fresh') (map fst (inners T) ++ lids) /\ fresh <= fresh' /\
      (forall y, y < fresh -> ~ In y (map fst (inners tl ++ inners tr ++ pinn p (rid tl))) -> h' y = h y).
  Proof.
    induction p as [|f p IH]; intros n h fresh level root tl tr key lids it Eit Hss Dl Dr Dp Elev Eroot Hm Hn Hf.
    - (* a new root *)
      cbn [pinn plo ppre ppost app length map div_up] in *. rewrite !app_nil_r in *. change (add_link cmp [] key (rid tr)) with [(key, rid tr)].
      exists (updn h fresh (Some (Inner (rid tl) [(key, rid tr)]))), (S fresh), (S level), fresh, (TI fresh tl [(key, tr)]).
      split; [reflexivity|]. cbn. rewrite !app_nil_r.
      assert (Nf : ~ In fresh (map fst (inners tl ++ inners tr) ++ lids)) by (intros H; rewrite Forall_forall in Hf; specialize (Hf _ H); lia).
      split; [auto|]. split; [rewrite Eit; auto|]. split; [lia|]. split; [replace (level - 0) with (S n) by lia; constructor; auto|].
      split. { apply hm_cons. cbn. rewrite updn_eq. split; auto. apply hm_upd; auto. intros H. apply Nf. apply in_or_app; auto. }
      split. { constructor; auto. }
      split. { constructor; auto. eapply Forall_impl; [|exact Hf]. cbn. lia. }
      split; [lia|]. intros y Hy _. apply updn_neq. lia.
    - cbn [pinn plo ppre ppost map div_up] in *. destruct Dp as [Df Dp].
      set (x := fid f) in *. set (ls := flinks f (rid tl)) in *.
      assert (Hx : h x = Some (Inner (fheir f (rid tl)) ls)). { apply hm_app in Hm. destruct Hm as [_ Hm]. apply hm_app in Hm. destruct Hm as [_ Hm]. apply hm_cons in Hm. apply Hm. }
      unfold inner_at. rewrite Hx. cbn [bind].
      assert (Als : add_link cmp ls key (rid tr) = flinks2 f (rid tl) key (rid tr)).
      { unfold ls, flinks, flinks2. apply add_link_at.
        - intros k1 c1 H1. assert (In (MS k1) (marks (fpre (plo None p) f ++ items (flo (plo None p) f) tl))) as H2 by (eapply fleft_keys; eauto).
          assert (Hs2 : StronglySorted mlt (marks (ppre None p) ++ marks (fpre (plo None p) f ++ items (flo (plo None p) f) tl) ++ marks (items (Some key) tr) ++ marks (fpost f ++ ppost p))).
          { unfold BtreeSort.ss in Hss. rewrite Eit in Hss. rewrite !marks_app in *. rewrite <- !app_assoc in *. exact Hss. }
          apply SS_app in Hs2. destruct Hs2 as (_ & Hs2 & _). apply SS_app in Hs2. destruct Hs2 as (_ & _ & Hs2). apply (Hs2 (MS k1) (MS key)); auto.
          apply in_or_app. left. destruct (items_hd tr (Some key)) as (y & rs & r & E). rewrite E, marks_cons. cbn. auto.
        - intros k1 c1 H1. assert (In (MS k1) (marks (fpost f))) as H2 by (eapply fright_keys; eauto).
          assert (Hs2 : StronglySorted mlt (marks (ppre None p ++ fpre (plo None p) f ++ items (flo (plo None p) f) tl) ++ marks (items (Some key) tr) ++ marks (fpost f ++ ppost p))).
          { unfold BtreeSort.ss in Hss. rewrite Eit in Hss. rewrite !marks_app in *. rewrite <- !app_assoc in *. exact Hss. }
          apply SS_app in Hs2. destruct Hs2 as (_ & Hs2 & _). apply SS_app in Hs2. destruct Hs2 as (_ & _ & Hs2). apply (Hs2 (MS key) (MS k1)); auto.
          + destruct (items_hd tr (Some key)) as (y & rs & r & E). rewrite E, marks_cons. cbn. auto.
          + rewrite marks_app. apply in_or_app. auto. }
      rewrite Als. destruct (plug2_kids f tl key tr) as (c0 & L & EN & Ec0 & EL). fold x in EN. rewrite <- EL, <- Ec0.
      (* the ids and nodes in a convenient order *)
      assert (PN : Permutation (inners tl ++ inners tr ++ (x, Inner (fheir f (rid tl)) ls) :: fsib f ++ pinn p x) ((x, Inner (fheir f (rid tl)) ls) :: (inners tl ++ inners tr ++ fsib f) ++ pinn p x)).
      { transitivity ((inners tl ++ inners tr) ++ (x, Inner (fheir f (rid tl)) ls) :: fsib f ++ pinn p x); [now rewrite <- app_assoc|]. rewrite <- Permutation_middle. now rewrite <- !app_assoc. }
      assert (Pids : Permutation (map fst (inners tl ++ inners tr ++ (x, Inner (fheir f (rid tl)) ls) :: fsib f ++ pinn p x)) (x :: map fst (inners tl ++ inners tr ++ fsib f) ++ map fst (pinn p x))).
      { rewrite PN. cbn. rewrite map_app. auto. }
      assert (P2 : Permutation (inners (TI x c0 L)) ((x, Inner (rid c0) (lnk L)) :: inners tl ++ inners tr ++ fsib f)).
      { rewrite <- EN, Ec0, EL. apply inners_plug2. }
      assert (P3 : Permutation (map fst (inners c0 ++ finners L)) (map fst (inners tl ++ inners tr ++ fsib f))).
      { apply Permutation_map. cbn in P2. apply Permutation_cons_inv in P2. exact P2. }
      apply (hm_perm _ _ _ PN) in Hm. apply hm_cons in Hm. destruct Hm as [_ Hm]. apply hm_app in Hm. destruct Hm as [Hm1 Hm2].
      apply (nodup_perm _ _ _ Pids) in Hn.
      assert (Hf' : Forall (fun y => y < fresh) (x :: (map fst (inners tl ++ inners tr ++ fsib f) ++ map fst (pinn p x)) ++ lids)).
      { rewrite Forall_forall in *. intros y Hy. apply Hf. apply in_app_or in Hy || (cbn in Hy). apply in_or_app.
        destruct Hy as [->|Hy]; [left; eapply Permutation_in; [symmetry; exact Pids|]; cbn; auto|]. apply in_app_or in Hy. destruct Hy as [Hy|Hy]; auto. left. eapply Permutation_in; [symmetry; exact Pids|]. cbn. auto. }
      cbn [app] in Hn. inversion Hn as [|? ? Nx Hn2]; subst x0 l.
      assert (Nx1 : ~ In x (map fst (inners c0 ++ finners L))). { intros H. apply Nx. apply in_or_app. left. apply in_or_app. left. eapply Permutation_in; [exact P3|exact H]. }
      assert (Nx2 : ~ In x (map fst (pinn p x))). { intros H. apply Nx. apply in_or_app. left. apply in_or_app. auto. }
      assert (Hmk : hm h (inners c0 ++ finners L)). { cbn in P2. apply Permutation_cons_inv in P2. symmetry in P2. eapply hm_perm; eauto. }
      assert (DN : dep (S n) (TI x c0 L)) by (rewrite <- EN; apply dep_plug2; auto).
      assert (EitN : it = ppre None p ++ items (plo None p) (TI x c0 L) ++ ppost p). { rewrite Eit, <- EN, items_plug2. now rewrite <- !app_assoc. }
      assert (InL : forall y, In y (map fst (inners tl ++ inners tr ++ fsib f)) \/ In y (map fst (pinn p x)) \/ y = x -> In y (map fst (inners tl ++ inners tr ++ (x, Inner (fheir f (rid tl)) ls) :: fsib f ++ pinn p x))).
      { intros y H. eapply Permutation_in; [symmetry; exact Pids|]. cbn. rewrite in_app_iff. intuition. }
      destruct (Nat.leb (length (lnk L)) max_branches).
      + (* it fits *)
        exists (updn h x (Some (Inner (rid c0) (lnk L)))), fresh, level, root, (plugs p (TI x c0 L)).
        split; [reflexivity|].
        assert (PT : Permutation (inners (plugs p (TI x c0 L))) ((x, Inner (rid c0) (lnk L)) :: (inners c0 ++ finners L) ++ pinn p x)) by (rewrite inners_plugs; reflexivity).
        assert (PTi : Permutation (map fst (inners (plugs p (TI x c0 L)))) (x :: map fst (inners tl ++ inners tr ++ fsib f) ++ map fst (pinn p x))).
        { rewrite PT. cbn. rewrite map_app. constructor. now apply Permutation_app_tail. }
        split. { rewrite Eroot. cbn [plugs]. clear. destruct p as [|g p]; cbn. - now rewrite rid_plug. - unfold x. generalize (TI (fid f) c0 L) as t1. generalize (plug f tl). revert g. induction p as [|g2 p IHp]; intros g a b; cbn. + now rewrite !rid_plug. + apply IHp. }
        split; [rewrite items_plugs; now symmetry|]. split; [lia|].
        split. { replace (level - 1) with (S n + length p) by (cbn in Elev; lia). apply dep_plugs; auto. }
        split. { eapply hm_perm; [symmetry; exact PT|]. apply hm_cons. cbn [fst snd]. rewrite updn_eq. split; auto. apply hm_app. split; apply hm_upd; auto. }
        split. { eapply nodup_perm; [symmetry; exact PTi|]. constructor; auto. }
        split. { apply Forall_forall. intros y Hy. rewrite Forall_forall in Hf'. apply Hf'. apply in_app_or in Hy. destruct Hy as [Hy|Hy]. - eapply Permutation_in in Hy; [|exact PTi]. destruct Hy as [Hy|Hy]; [left; auto|]. right. apply in_or_app; auto. - right. apply in_or_app; auto. }
        split; [lia|]. intros y Hy Ny. apply updn_neq. intros ->. apply Ny. rewrite ?Ec0. apply InL. auto.
      + (* it is split *)
        set (m := Nat.div2 (length (lnk L))). unfold lnk at 1. rewrite skipn_map. fold (lnk (skipn m L)).
        assert (Lpos : length L <> 0). { intros H. assert (length (lnk L) = 0) as H2 by (unfold lnk; rewrite map_length; auto). rewrite EL in H2. unfold flinks2 in H2. rewrite app_length in H2. cbn in H2. lia. }
        assert (Lm : m < length L). { unfold m, lnk. rewrite map_length. apply Nat.lt_div2. lia. }
        pose proof (firstn_skipn m L) as SL. assert (length (skipn m L) <> 0) as Ls by (rewrite skipn_length; lia).
        destruct (skipn m L) as [|[mk mc] R] eqn:Esk; [cbn in Ls; lia|]. cbn [lnk map fst snd]. fold (lnk R).
        assert (SsN : ss (items (plo None p) (TI x c0 L))). { unfold BtreeSort.ss in *. rewrite EitN in Hss. rewrite !marks_app in Hss. apply SS_app in Hss. destruct Hss as (_ & Hss & _). apply SS_app in Hss. apply Hss. }
        pose proof (kids_sorted _ _ _ _ SsN) as KS.
        rewrite add_links; [|cbn; rewrite <- SL, lnk_app in KS; apply SS_app in KS; destruct KS as (_ & KS & _); cbn in KS; inversion KS; auto].
        cbn [app]. set (L1 := firstn m L) in *.
        assert (EL1 : firstn (length (lnk L) - S (length (lnk R))) (lnk L) = lnk L1).
        { pose proof (f_equal (@length _) SL) as SLl. rewrite app_length in SLl. cbn in SLl. assert (length L1 = m) by (unfold L1; rewrite firstn_length; lia).
          assert (length (lnk L) - S (length (lnk R)) = m) as -> by (unfold lnk; rewrite !map_length; lia).
          unfold lnk. now rewrite firstn_map. }
        clearbody L1.
        rewrite EL1.
        set (tl' := TI x c0 L1). set (tr' := TI fresh mc R).
        set (h2 := updn (updn h fresh (Some (Inner (rid mc) (lnk R)))) x (Some (Inner (rid c0) (lnk L1)))).
        assert (Nfx : fresh <> x) by (inversion Hf'; subst; lia).
        assert (Nf : forall y, In y ((map fst (inners tl ++ inners tr ++ fsib f) ++ map fst (pinn p x)) ++ lids) -> y <> fresh). { intros y Hy. rewrite Forall_forall in Hf'. specialize (Hf' y (or_intror Hy)). lia. }
        assert (Pk : Permutation (inners tl' ++ inners tr') ((x, Inner (rid c0) (lnk L1)) :: (fresh, Inner (rid mc) (lnk R)) :: inners c0 ++ finners L)).
        { unfold tl', tr'. cbn. fold (finners L1) (finners R). constructor. rewrite <- Permutation_middle. constructor. rewrite <- SL, finners_app. cbn. fold (finners R). now rewrite <- !app_assoc. }
        assert (Pkid : Permutation (map fst (inners tl' ++ inners tr' ++ pinn p x)) (fresh :: x :: map fst (inners tl ++ inners tr ++ fsib f) ++ map fst (pinn p x))).
        { rewrite app_assoc, map_app. rewrite Pk. cbn. rewrite P3. constructor 3. }
        assert (Hk2 : hm h2 (inners tl' ++ inners tr' ++ pinn p x)).
        { rewrite app_assoc. apply hm_app. split.
          - eapply hm_perm; [symmetry; exact Pk|]. apply hm_cons. cbn [fst snd]. unfold h2. rewrite updn_eq. split; auto. apply hm_cons. cbn [fst snd]. rewrite updn_neq by auto. rewrite updn_eq. split; auto.
            apply hm_upd; auto. apply hm_upd; auto. intros H. apply (Nf fresh); auto. apply in_or_app. left. apply in_or_app. left. eapply Permutation_in; [exact P3|exact H].
          - unfold h2. apply hm_upd; auto. apply hm_upd; auto. intros H. apply (Nf fresh); auto. apply in_or_app. left. apply in_or_app. auto. }
        assert (Dk : dep (S n) tl' /\ dep (S n) tr'). { assert (dep n c0 /\ Forall (fun kt => dep n (snd kt)) L) as [Dc DL] by (inversion DN; auto). rewrite <- SL in DL. apply Forall_app in DL. destruct DL as [DL1 DL2]. inversion DL2; subst. split; constructor; auto. }
        destruct Dk as [Dl' Dr'].
        destruct (IH (S n) h2 (S fresh) level root tl' tr' mk lids it) as (h' & fresh' & level' & root' & T & E1 & E2 & E3 & E4 & E5 & E6 & E7 & E8 & E9 & E10); auto.
        * rewrite EitN. f_equal. unfold tl', tr'. cbn [items]. rewrite <- SL. rewrite flat_map_app. cbn [flat_map fst snd]. now rewrite <- !app_assoc.
        * cbn in Elev. lia.
        * rewrite Eroot. cbn [plugs]. clear. unfold tl', x. destruct p as [|g p]; cbn. -- now rewrite rid_plug. -- generalize (TI (fid f) c0 L1) as t1. generalize (plug f tl). revert g. induction p as [|g2 p IHp]; intros g a b; cbn. ++ now rewrite !rid_plug. ++ apply IHp.
        * eapply nodup_perm; [symmetry; exact Pkid|]. cbn. constructor; [|constructor; auto]. intros [H|H]; [auto|]. apply (Nf fresh); auto.
        * apply Forall_forall. intros y Hy. apply in_app_or in Hy. rewrite Forall_forall in Hf'. destruct Hy as [Hy|Hy].
          -- eapply Permutation_in in Hy; [|exact Pkid]. destruct Hy as [Hy|[Hy|Hy]]; [lia| |]. ++ specialize (Hf' y (or_introl Hy)). lia. ++ specialize (Hf' y). cbn in Hf'. assert (y < fresh); [|lia]. apply Hf'. right. apply in_or_app; auto.
          -- specialize (Hf' y). cbn in Hf'. assert (y < fresh); [|lia]. apply Hf'. right. apply in_or_app; auto.
        * exists h', fresh', level', root', T. split; [exact E1|]. repeat (split; [assumption|]). split; [lia|].
          intros y Hy Ny. rewrite E10; [|lia|]. -- unfold h2. rewrite updn_neq. ++ apply updn_neq. lia. ++ intros ->. apply Ny. rewrite ?Ec0. apply InL. auto.
          -- intros H. eapply Permutation_in in H; [|exact Pkid]. destruct H as [H|[H|H]]; [lia| |]. ++ apply Ny. rewrite ?Ec0. apply InL. auto. ++ apply Ny. rewrite ?Ec0. apply InL. apply in_app_or in H. tauto.
  Qed.
End Up.

(** * Merging inner nodes *)
Lemma sibs_from_at : forall a prev k c b, ~ In c (map snd a) -> sibs_from prev (a ++ (k, c) :: b) c = (Some (last (map snd a) prev), k, hd_error b).
Proof.
  induction a as [|[k1 c1] a IH]; intros prev k c b N; cbn.
  - now rewrite Nat.eqb_refl.
  - cbn in N. assert (c1 <> c) as Nc by tauto. apply Nat.eqb_neq in Nc. rewrite Nc. rewrite IH by tauto. f_equal. f_equal. f_equal.
    destruct (map snd a) as [|i l]; auto. clear. revert i. induction l as [|j l IH]; intros i; cbn; auto. apply (IH j).
Qed.
Lemma join_prev_at : forall a k c b, ~ In c (map snd a) -> join_prev (a ++ (k, c) :: b) c = a ++ b.
Proof. induction a as [|[k1 c1] a IH]; intros k c b N; cbn. - now rewrite Nat.eqb_refl. - cbn in N. assert (c1 <> c) as Nc by tauto. apply Nat.eqb_neq in Nc. rewrite Nc, IH; tauto. Qed.
Lemma join_next_at : forall a k c k2 c2 b z, ~ In c (map snd a) -> join_next_links (a ++ (k, c) :: (k2, c2) :: b) c z = Ok (a ++ (k, z) :: b).
Proof. induction a as [|[k1 c1] a IH]; intros k c k2 c2 b z N; cbn. - now rewrite Nat.eqb_refl. - cbn in N. assert (c1 <> c) as Nc by tauto. apply Nat.eqb_neq in Nc. rewrite Nc, IH by tauto. reflexivity. Qed.

Lemma plug_kids : forall f t, exists c0 L, plug f t = TI (fid f) c0 L /\ rid c0 = fheir f (rid t) /\ lnk L = flinks f (rid t).
Proof.
  intros [x l|x t0 l1 k0 l2] t; cbn.
  - exists t, l. auto.
  - exists t0, (l1 ++ (k0, t) :: l2). repeat split. rewrite lnk_app. unfold flinks, fleft, fright. cbn. now rewrite <- app_assoc.
Qed.
Lemma plug_plug2 : forall f t g a k b, plug f t = plug2 g a k b -> fid f = fid g /\ fheir f (rid t) = fheir g (rid a) /\ flinks f (rid t) = flinks2 g (rid a) k (rid b).
Proof.
  intros f t g a k b E. destruct (plug_kids f t) as (c0 & L & E1 & E2 & E3). destruct (plug2_kids g a k b) as (d0 & M & F1 & F2 & F3).
  rewrite E1, F1 in E. inversion E; subst. rewrite <- E2, <- E3, <- F2, <- F3. auto.
Qed.
Definition kid_ids (f : frame) (h : id) : list id := fheir f h :: map snd (flinks f h).
Lemma sibs_spec : forall f t, NoDup (kid_ids f (rid t)) ->
  sibs (fheir f (rid t)) (flinks f (rid t)) (rid t) =
  match prev_split f with Some (_, q, k) => (Some (rid q), k, hd_error (fright f)) | None => (None, [], hd_error (fright f)) end.
Proof.
  intros [x l|x t0 l1 k l2] t N; unfold sibs; cbn [fheir].
  - now rewrite Nat.eqb_refl.
  - unfold kid_ids, flinks, fleft in *. cbn [fheir] in *. rewrite <- app_assoc in *. cbn [app] in *. rewrite map_app in N. cbn in N. inversion N as [|? ? N1 N2]; subst.
    assert (rid t0 <> rid t) as Nt. { intros H. apply N1. rewrite H. apply in_or_app. cbn. auto. }
    apply Nat.eqb_neq in Nt. rewrite Nt. rewrite sibs_from_at.
    + cbn [prev_split]. destruct (rev l1) as [|[kq q] r] eqn:E.
      * assert (l1 = []) by (rewrite <- (rev_involutive l1), E; auto). subst. reflexivity.
      * assert (l1 = rev r ++ [(kq, q)]) by (rewrite <- (rev_involutive l1), E; auto). subst. rewrite lnk_app, map_app. cbn. now rewrite last_last.
    + intros H. apply NoDup_remove_2 in N2. apply N2. apply in_or_app. auto.
Qed.
Lemma next_hd : forall f, hd_error (fright f) = match next_split f with Some (k, z, _) => Some (k, rid z) | None => None end.
Proof. intros [x [|[k z] l]|x t0 l1 k0 [|[k z] l]]; reflexivity. Qed.
Lemma join_prev_plug : forall g a k b, NoDup (fheir g (rid a) :: map snd (flinks2 g (rid a) k (rid b))) -> join_prev (flinks2 g (rid a) k (rid b)) (rid b) = flinks g (rid a).
Proof.
  intros g a k b N. unfold flinks2, flinks in *. apply join_prev_at. intros H. inversion N as [|? ? _ N2]; subst. rewrite map_app in N2. cbn in N2. apply NoDup_remove_2 in N2. apply N2. apply in_or_app. auto.
Qed.
Lemma join_next_plug : forall g a k b, NoDup (fheir g (rid a) :: map snd (flinks2 g (rid a) k (rid b))) ->
  join_next (fheir g (rid a)) (flinks2 g (rid a) k (rid b)) (rid a) (rid b) = Ok (fheir g (rid b), flinks g (rid b)).
Proof.
  intros [x l|x t0 l1 k0 l2] a k b N; unfold join_next; cbn [fheir].
  - rewrite Nat.eqb_refl. reflexivity.
  - unfold flinks2, flinks, fleft in *. cbn [fheir] in N. rewrite <- app_assoc in *. cbn [app] in *. rewrite map_app in N. cbn in N. inversion N as [|? ? N1 N2]; subst.
    assert (rid t0 <> rid a) as Nt. { intros H. apply N1. rewrite H. apply in_or_app. cbn. auto. }
    apply Nat.eqb_neq in Nt. rewrite Nt. rewrite join_next_at.
    + cbn [bind]. now rewrite <- app_assoc.
    + intros H. apply NoDup_remove_2 in N2. apply N2. apply in_or_app. auto.
Qed.
Lemma rid_plugs : forall p a b, rid a = rid b -> rid (plugs p a) = rid (plugs p b).
Proof. induction p as [|f p IH]; intros a b H; cbn; auto. apply IH. now rewrite !rid_plug. Qed.
Lemma rid_inner : forall n t, dep (S n) t -> In (rid t) (map fst (inners t)).
Proof. intros n t H. inversion H; subst. cbn. auto. Qed.
Lemma nodup_rids : forall n ts, Forall (dep (S n)) ts -> NoDup (map fst (flat_map inners ts)) -> NoDup (map rid ts).
Proof.
  intros n ts D. induction D as [|t ts Dt D IH]; cbn; intros N; [constructor|]. rewrite map_app in N. constructor.
  - intros H. apply in_map_iff in H. destruct H as (t2 & E & H).
    assert (In (rid t) (map fst (flat_map inners ts))). { rewrite <- E. rewrite Forall_forall in D. specialize (D _ H). apply rid_inner in D. apply in_map_iff in D. destruct D as (u & U1 & U2). apply in_map_iff. exists u. split; auto. apply in_flat_map. eauto. }
    apply rid_inner in Dt. clear - N H0 Dt. induction (map fst (inners t)) as [|y l IH]; [destruct Dt|]. cbn in N. inversion N; subst. destruct Dt as [->|Dt]; auto. apply H2. apply in_or_app; auto.
  - apply IH. clear - N. induction (map fst (inners t)); auto. inversion N; auto.
Qed.
(** The child ids of an inner node are distinct. *)
Lemma kids_nodup : forall n x c0 L, dep (S (S n)) (TI x c0 L) -> NoDup (map fst (inners (TI x c0 L))) -> NoDup (rid c0 :: map snd (lnk L)).
Proof.
  intros n x c0 L D N. inversion D; subst. cbn in N. inversion N; subst.
  assert (E : rid c0 :: map snd (lnk L) = map rid (c0 :: map snd L)) by (cbn; unfold lnk; rewrite !map_map; reflexivity).
  rewrite E. apply (nodup_rids n). - constructor; auto. apply Forall_forall. intros t Ht. apply in_map_iff in Ht. destruct Ht as (kt & <- & Ht). rewrite Forall_forall in H4. auto.
  - cbn. rewrite flat_map_concat_map, map_map, <- flat_map_concat_map. exact H3.
Qed.

(** Two neighbours become one. *)
Definition join2 (a b : bt) (k : bytes) : bt := match a, b with TI x a0 al, TI _ b0 bl => TI x a0 (al ++ (k, b0) :: bl) | _, _ => a end.
Lemma step_ok : forall g x a0 al k y b0 bl h R lids, let a := TI x a0 al in let b := TI y b0 bl in
  hm h (inners (plug2 g a k b) ++ R) -> NoDup (map fst (inners (plug2 g a k b) ++ R) ++ lids) ->
  let h' := updn (updn (updn h x (Some (Inner (rid a0) (lnk al ++ (k, rid b0) :: lnk bl)))) (fid g) (Some (Inner (fheir g x) (flinks g x)))) y None in
  hm h' (inners (plug g (join2 a b k)) ++ R) /\ NoDup (map fst (inners (plug g (join2 a b k)) ++ R) ++ lids) /\
  incl (map fst (inners (plug g (join2 a b k)))) (map fst (inners (plug2 g a k b))) /\
  (forall z, ~ In z (map fst (inners (plug2 g a k b))) -> h' z = h z).
Proof.
  intros g x a0 al k y b0 bl h R lids a b Hm Hn h'.
  set (rest := inners a0 ++ finners al ++ inners b0 ++ finners bl ++ fsib g).
  assert (P1 : Permutation (inners (plug2 g a k b)) ((fid g, Inner (fheir g x) (flinks2 g x k y)) :: (x, Inner (rid a0) (lnk al)) :: (y, Inner (rid b0) (lnk bl)) :: rest)).
  { rewrite inners_plug2. constructor. cbn [inners a b]. fold (finners al) (finners bl). cbn [app]. constructor. rewrite <- app_assoc. unfold rest.
    transitivity ((inners a0 ++ finners al) ++ (y, Inner (rid b0) (lnk bl)) :: (inners b0 ++ finners bl) ++ fsib g); [now rewrite <- !app_assoc|]. rewrite <- Permutation_middle. constructor. now rewrite <- !app_assoc. }
  assert (P2 : Permutation (inners (plug g (join2 a b k))) ((fid g, Inner (fheir g x) (flinks g x)) :: (x, Inner (rid a0) (lnk al ++ (k, rid b0) :: lnk bl)) :: rest)).
  { rewrite inners_plug. unfold a, b. cbn [join2 rid inners]. fold (finners (al ++ (k, b0) :: bl)). rewrite lnk_app, finners_app. constructor. cbn. fold (finners bl). constructor. unfold rest. now rewrite <- !app_assoc. }
  assert (Q1 : Permutation (map fst (inners (plug2 g a k b) ++ R)) (fid g :: x :: y :: map fst rest ++ map fst R)) by (rewrite map_app, P1; reflexivity).
  assert (Q2 : Permutation (map fst (inners (plug g (join2 a b k)) ++ R)) (fid g :: x :: map fst rest ++ map fst R)) by (rewrite map_app, P2; reflexivity).
  apply (nodup_perm _ _ _ Q1) in Hn. cbn in Hn. inversion Hn as [|? ? N1 Hn1]; subst. inversion Hn1 as [|? ? N2 Hn2]; subst. inversion Hn2 as [|? ? N3 Hn3]; subst.
  cbn in N1, N2. rewrite <- !app_assoc in *.
  assert (fid g <> y /\ x <> y /\ x <> fid g) as (A1 & A2 & A3) by (repeat split; intros E; subst; tauto).
  assert (Hr : hm h (rest ++ R)). { apply hm_app in Hm. destruct Hm as [Hm HR]. apply (hm_perm _ _ _ P1) in Hm. apply hm_cons in Hm. destruct Hm as [_ Hm]. apply hm_cons in Hm. destruct Hm as [_ Hm]. apply hm_cons in Hm. apply hm_app. tauto. }
  assert (In3 : forall z, In z (map fst (rest ++ R)) -> In z (map fst rest ++ map fst R ++ lids)). { intros z Hz. rewrite map_app in Hz. rewrite !in_app_iff in *. tauto. }
  split; [|split; [|split]].
  - assert (P3 : Permutation (inners (plug g (join2 a b k)) ++ R) ((fid g, Inner (fheir g x) (flinks g x)) :: (x, Inner (rid a0) (lnk al ++ (k, rid b0) :: lnk bl)) :: rest ++ R)) by (rewrite P2; reflexivity).
    eapply hm_perm; [symmetry; exact P3|]. apply hm_cons. cbn [fst snd]. split. + unfold h'. rewrite updn_neq by auto. apply updn_eq.
    + apply hm_cons. cbn [fst snd]. split. * unfold h'. rewrite !updn_neq by auto. apply updn_eq.
      * unfold h'. apply hm_upd; [apply hm_upd; [apply hm_upd; auto|]|]; intros H; apply In3 in H; rewrite !in_app_iff in *; tauto.
  - eapply nodup_perm; [symmetry; exact Q2|]. cbn. rewrite <- app_assoc. constructor; [cbn in *; tauto|]. constructor; auto.
  - intros z Hz. eapply Permutation_in; [apply Permutation_map; symmetry; exact P1|]. eapply Permutation_in in Hz; [|apply Permutation_map; exact P2]. cbn in *. tauto.
  - intros z Hz. assert (z <> y /\ z <> fid g /\ z <> x) as (A & B & C).
    { repeat split; intros ->; apply Hz; (eapply Permutation_in; [apply Permutation_map; symmetry; exact P1|]); cbn; auto. }
    unfold h'. now rewrite !updn_neq.
Qed.
Lemma join2_items : forall s g x a0 al k y b0 bl, items s (plug g (join2 (TI x a0 al) (TI y b0 bl) k)) = items s (plug2 g (TI x a0 al) k (TI y b0 bl)).
Proof. intros. rewrite items_plug, items_plug2. f_equal. cbn [join2 items]. rewrite flat_map_app. cbn. now rewrite <- !app_assoc. Qed.
Lemma join2_dep : forall n g x a0 al k y b0 bl, dep (S (S n)) (plug2 g (TI x a0 al) k (TI y b0 bl)) -> dep (S (S n)) (plug g (join2 (TI x a0 al) (TI y b0 bl) k)).
Proof.
  intros n g x a0 al k y b0 bl D. apply dep_unplug2 in D. destruct D as (D1 & D2 & D3). apply dep_plug; auto. inversion D1; subst. inversion D2; subst. cbn. constructor; auto. apply Forall_app. split; auto.
Qed.

Section MergeUp.
  Variable max_branches : nat.
  Lemma merge_up_ok : forall p n x t0 l h level root lids, let t := TI x t0 l in
    dep (S n) t -> pdep (S n) p -> level = S (S n + length p) -> root = rid (plugs p t) ->
    hm h (inners t ++ pinn p x) -> NoDup (map fst (inners t ++ pinn p x) ++ lids) ->
    exists h' level' root' T, merge_up max_branches x (map fid p) h level root = Ok (h', level', root') /\
      rid T = root' /\ items None T = items None (plugs p t) /\ 1 <= level' /\ dep (level' - 1) T /\ hm h' (inners T) /\
      NoDup (map fst (inners T) ++ lids) /\ incl (map fst (inners T)) (map fst (inners t ++ pinn p x)) /\
      (forall y, ~ In y (map fst (inners t ++ pinn p x)) -> h' y = h y).
  Proof.
    induction p as [|f p IH]; intros n x t0 l h level root lids t D Dp Elev Eroot Hm Hn.
    - assert (Hx : h x = Some (Inner (rid t0) (lnk l))) by (cbn in Hm; apply hm_cons in Hm; apply Hm).
      cbn [map merge_up]. unfold inner_at. rewrite Hx. cbn [bind]. cbn [pinn] in *. rewrite app_nil_r in *.
      assert (Stay : exists h' level' root' T, Ok (h, level, root) = Ok (h', level', root') /\
        rid T = root' /\ items None T = items None (plugs [] t) /\ 1 <= level' /\ dep (level' - 1) T /\ hm h' (inners T) /\
        NoDup (map fst (inners T) ++ lids) /\ incl (map fst (inners T)) (map fst (inners t)) /\ (forall y, ~ In y (map fst (inners t)) -> h' y = h y)).
      { exists h, level, root, t. repeat split; auto; [lia | | intros ?; auto]. replace (level - 1) with (S n) by (cbn in Elev; lia). exact D. }
      destruct (Nat.ltb (length (lnk l)) (Nat.div2 max_branches)); [|exact Stay].
      destruct l as [|kt l]; [|cbn in *; exact Stay]. cbn [lnk map].
      exists (updn h x None), (level - 1), (rid t0), t0. cbn in Hm, Hn. rewrite app_nil_r in *. apply hm_cons in Hm. destruct Hm as [_ Hm]. inversion Hn; subst.
      repeat split; auto. + cbn. now rewrite app_nil_r. + cbn in *. lia. + cbn in *. rewrite Nat.add_0_r, Nat.sub_0_r. inversion D; subst; auto.
      + apply hm_upd; auto. intros H. apply H1. apply in_or_app; auto.
      + intros y Hy. cbn. rewrite app_nil_r. auto.
      + intros y Hy. apply updn_neq. intros ->. apply Hy. cbn. auto.
    - assert (Hx : h x = Some (Inner (rid t0) (lnk l))) by (cbn in Hm; apply hm_cons in Hm; apply Hm).
      cbn [map merge_up]. unfold inner_at at 1. rewrite Hx. cbn [bind].
      assert (PP : Permutation (inners t ++ pinn (f :: p) x) (inners (plug f t) ++ pinn p (fid f))).
      { rewrite inners_plug. unfold t. cbn [rid pinn]. rewrite <- Permutation_middle. cbn. now rewrite <- !app_assoc. }
      assert (Dpl : dep (S (S n)) (plug f t)) by (destruct Dp; apply dep_plug; auto).
      apply (hm_perm _ _ _ PP) in Hm. assert (Hn2 : NoDup (map fst (inners (plug f t) ++ pinn p (fid f)) ++ lids)) by (eapply nodup_perm; [apply Permutation_map; exact PP|exact Hn]).
      assert (InP : forall y, In y (map fst (inners t ++ pinn (f :: p) x)) <-> In y (map fst (inners (plug f t) ++ pinn p (fid f)))).
      { intros y. split; intros H; (eapply Permutation_in; [|exact H]); apply Permutation_map; [|symmetry]; exact PP. }
      destruct (plug_kids f t) as (c0 & L & EN & Ec0 & EL).
      assert (Kn : NoDup (kid_ids f (rid t))). { unfold kid_ids. rewrite <- Ec0, <- EL. apply (kids_nodup n (fid f)). - now rewrite <- EN. - rewrite <- EN. rewrite map_app, <- app_assoc in Hn2. clear - Hn2. revert Hn2. generalize (map fst (inners (plug f t))). intros l0; revert l0. induction l0; cbn; intros H; constructor; inversion H; subst; auto. intros H0. apply H2. apply in_or_app; auto. }
      assert (Hpar : h (fid f) = Some (Inner (fheir f (rid t)) (flinks f (rid t)))). { apply hm_app in Hm. destruct Hm as [Hm _]. rewrite EN in Hm. cbn in Hm. apply hm_cons in Hm. destruct Hm as [Hm _]. cbn in Hm. rewrite Hm, Ec0, EL. auto. }
      (* the recursive call on any arrangement of the parent with the same leaves *)
      assert (Rec : forall T1 h1, rid T1 = fid f -> dep (S (S n)) T1 -> items (plo None p) T1 = items (plo None p) (plug f t) ->
                 hm h1 (inners T1 ++ pinn p (fid f)) -> NoDup (map fst (inners T1 ++ pinn p (fid f)) ++ lids) -> incl (map fst (inners T1)) (map fst (inners (plug f t))) ->
                 (forall y, ~ In y (map fst (inners (plug f t))) -> h1 y = h y) ->
                 exists h' level' root' T, merge_up max_branches (fid f) (map fid p) h1 level root = Ok (h', level', root') /\
                   rid T = root' /\ items None T = items None (plugs (f :: p) t) /\ 1 <= level' /\ dep (level' - 1) T /\ hm h' (inners T) /\
                   NoDup (map fst (inners T) ++ lids) /\ incl (map fst (inners T)) (map fst (inners t ++ pinn (f :: p) x)) /\
                   (forall y, ~ In y (map fst (inners t ++ pinn (f :: p) x)) -> h' y = h y)).
      { intros T1 h1 E1 D1 I1 M1 N1 Inc Fr. inversion D1 as [|? x1 c1 L1 Dc1 DL1]; subst n0 T1. cbn in E1. subst x1.
        destruct (IH (S n) (fid f) c1 L1 h1 level root lids) as (h' & level' & root' & T & F1 & F2 & F3 & F4 & F5 & F6 & F7 & F8 & F9); auto.
        - destruct Dp; auto.
        - cbn in *. lia.
        - rewrite Eroot. cbn [plugs]. apply rid_plugs. now rewrite rid_plug.
        - exists h', level', root', T. repeat split; auto.
          + rewrite F3. cbn [plugs]. rewrite !items_plugs. now rewrite I1.
          + intros y Hy. apply InP. apply F8 in Hy. rewrite map_app in *. apply in_app_or in Hy. apply in_or_app. destruct Hy as [Hy|Hy]; auto.
          + intros y Hy. rewrite InP in Hy. rewrite map_app in Hy. rewrite F9. * apply Fr. intros H. apply Hy. apply in_or_app; auto. * intros H. apply Hy. rewrite map_app in H. apply in_app_or in H. apply in_or_app. destruct H; auto. }
      destruct (Nat.ltb (length (lnk l)) (Nat.div2 max_branches)).
      2:{ exists h, level, root, (plugs (f :: p) t). repeat split; auto.
          - lia.
          - replace (level - 1) with (S (S n) + length p) by (cbn in *; lia). cbn [plugs]. apply dep_plugs; auto. destruct Dp; auto.
          - cbn [plugs]. eapply hm_perm; [symmetry; apply inners_plugs|]. now rewrite rid_plug.
          - cbn [plugs]. eapply nodup_perm; [apply Permutation_map; symmetry; apply inners_plugs|]. now rewrite rid_plug.
          - intros y Hy. apply InP. cbn [plugs] in Hy. eapply Permutation_in in Hy; [|apply Permutation_map; apply inners_plugs]. now rewrite rid_plug in Hy. }
      unfold inner_at at 1. rewrite Hpar. cbn [bind]. change x with (rid t) at 1. rewrite (sibs_spec f t Kn). rewrite next_hd.
      pose proof (next_split_spec f t) as NS. pose proof (prev_split_spec f t) as PS.
      (* into the previous node *)
      assert (Prev : forall g q k, prev_split f = Some (g, q, k) -> exists qx q0 ql, q = TI qx q0 ql /\ inner_at h qx = Ok (rid q0, lnk ql) /\
         let h3 := updn (updn (updn h qx (Some (Inner (rid q0) (lnk ql ++ (k, rid t0) :: lnk l)))) (fid f) (Some (Inner (fheir f (rid t)) (join_prev (flinks f (rid t)) x)))) x None in
         exists h' level' root' T, merge_up max_branches (fid f) (map fid p) h3 level root = Ok (h', level', root') /\
                   rid T = root' /\ items None T = items None (plugs (f :: p) t) /\ 1 <= level' /\ dep (level' - 1) T /\ hm h' (inners T) /\
                   NoDup (map fst (inners T) ++ lids) /\ incl (map fst (inners T)) (map fst (inners t ++ pinn (f :: p) x)) /\
                   (forall y, ~ In y (map fst (inners t ++ pinn (f :: p) x)) -> h' y = h y)).
      { intros g q k Eg. rewrite Eg in PS. destruct PS as (E1 & E2 & E3). pose proof (plug_plug2 _ _ _ _ _ _ E1) as (G1 & G2 & G3).
        rewrite E1 in Dpl. pose proof (dep_unplug2 _ _ _ _ _ Dpl) as (Dq & _ & _). inversion Dq as [|? qx q0 ql Dq0 Dql]; subst q n0. exists qx, q0, ql. split; auto.
        rewrite E1 in Hm, Hn2. split. { apply hm_app in Hm. destruct Hm as [Hm _]. eapply hm_perm in Hm; [|apply inners_plug2]. apply hm_cons in Hm. destruct Hm as [_ Hm]. cbn in Hm. apply hm_cons in Hm. destruct Hm as [Hm _]. cbn in Hm. unfold inner_at. now rewrite Hm. }
        intros h3. destruct (step_ok g qx q0 ql k x t0 l h (pinn p (fid f)) lids Hm Hn2) as (S1 & S2 & S3 & S4).
        assert (Eh : h3 = updn (updn (updn h qx (Some (Inner (rid q0) (lnk ql ++ (k, rid t0) :: lnk l)))) (fid g) (Some (Inner (fheir g qx) (flinks g qx)))) x None).
        { unfold h3. rewrite G2, G3, E2. change x with (rid t). change qx with (rid (TI qx q0 ql)) at 3 4 6. rewrite join_prev_plug. - reflexivity. - unfold kid_ids in Kn. rewrite G2, G3 in Kn. exact Kn. }
        rewrite Eh. apply (Rec (plug g (join2 (TI qx q0 ql) (TI x t0 l) k))); auto.
        - now rewrite rid_plug.
        - apply join2_dep. exact Dpl.
        - rewrite join2_items, E1. reflexivity.
        - rewrite E1. exact S3.
        - rewrite E1. exact S4. }
      assert (Next : forall g z k, next_split f = Some (k, z, g) -> exists zx z0 zl, z = TI zx z0 zl /\ inner_at h zx = Ok (rid z0, lnk zl) /\
         let h3 := updn (updn (updn h x (Some (Inner (rid t0) (lnk l ++ (k, rid z0) :: lnk zl)))) (fid f) (Some (Inner (fheir f (rid t)) (join_prev (flinks f (rid t)) zx)))) zx None in
         exists h' level' root' T, merge_up max_branches (fid f) (map fid p) h3 level root = Ok (h', level', root') /\
                   rid T = root' /\ items None T = items None (plugs (f :: p) t) /\ 1 <= level' /\ dep (level' - 1) T /\ hm h' (inners T) /\
                   NoDup (map fst (inners T) ++ lids) /\ incl (map fst (inners T)) (map fst (inners t ++ pinn (f :: p) x)) /\
                   (forall y, ~ In y (map fst (inners t ++ pinn (f :: p) x)) -> h' y = h y)).
      { intros g z k Eg. rewrite Eg in NS. destruct NS as (E1 & E2 & E3). pose proof (plug_plug2 _ _ _ _ _ _ E1) as (G1 & G2 & G3).
        rewrite E1 in Dpl. pose proof (dep_unplug2 _ _ _ _ _ Dpl) as (_ & Dz & _). inversion Dz as [|? zx z0 zl Dz0 Dzl]; subst z n0. exists zx, z0, zl. split; auto.
        rewrite E1 in Hm, Hn2. split. { apply hm_app in Hm. destruct Hm as [Hm _]. eapply hm_perm in Hm; [|apply inners_plug2]. apply hm_cons in Hm. destruct Hm as [_ Hm]. apply hm_app in Hm. destruct Hm as [_ Hm]. cbn in Hm. apply hm_cons in Hm. destruct Hm as [Hm _]. cbn in Hm. unfold inner_at. now rewrite Hm. }
        intros h3. destruct (step_ok g x t0 l k zx z0 zl h (pinn p (fid f)) lids Hm Hn2) as (S1 & S2 & S3 & S4).
        assert (Eh : h3 = updn (updn (updn h x (Some (Inner (rid t0) (lnk l ++ (k, rid z0) :: lnk zl)))) (fid g) (Some (Inner (fheir g x) (flinks g x)))) zx None).
        { unfold h3. rewrite G2, G3, E2. change zx with (rid (TI zx z0 zl)) at 2. rewrite join_prev_plug. - reflexivity. - unfold kid_ids in Kn. rewrite G2, G3 in Kn. exact Kn. }
        rewrite Eh. apply (Rec (plug g (join2 (TI x t0 l) (TI zx z0 zl) k))); auto.
        - now rewrite rid_plug.
        - apply join2_dep. exact Dpl.
        - rewrite join2_items, E1. reflexivity.
        - rewrite E1. exact S3.
        - rewrite E1. exact S4. }
      destruct (prev_split f) as [[[g q] k]|] eqn:Epr; destruct (next_split f) as [[[nk z] g2]|] eqn:Enx; cbn [bind].
      + destruct (Prev g q k eq_refl) as (qx & q0 & ql & -> & Hq & Rp). destruct (Next g2 z nk eq_refl) as (zx & z0 & zl & -> & Hz & Rn). cbn [rid]. rewrite Hq. cbn [bind]. rewrite Hz. cbn [bind].
        destruct (Nat.leb (length (lnk ql)) (length (lnk zl))); [exact Rp | exact Rn].
      + destruct (Prev g q k eq_refl) as (qx & q0 & ql & -> & Hq & Rp). cbn [rid]. rewrite Hq. cbn [bind]. exact Rp.
      + destruct (Next g2 z nk eq_refl) as (zx & z0 & zl & -> & Hz & Rn). cbn [rid]. rewrite Hz. cbn [bind]. exact Rn.
      + apply (Rec (plug f t)); auto. * apply rid_plug. * intros y; auto.
  Qed.
End MergeUp.
