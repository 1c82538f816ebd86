(** MergeNodes keeps the invariant of the B+ tree and the records. *)
From Coq Require Import List NArith ZArith Bool Lia Arith Permutation Sorting.Sorted.
Import ListNotations.
From Verif Require Import Bytes DbmModel BtreeModel BtreeTree BtreeSort BtreeUp BtreeInv.

Lemma nodup_split : forall (E A B A' B' : list ent) lo x rs lo' rs', NoDup (map eid E) -> E = A ++ (lo, x, rs) :: B -> E = A' ++ (lo', x, rs') :: B' ->
  A = A' /\ lo = lo' /\ rs = rs' /\ B = B'.
Proof.
  intros E A B A' B' lo x rs lo' rs' N E1 E2. rewrite E1 in E2.
  assert (Nx : ~ In x (map eid A ++ map eid B)) by (rewrite E1, map_app in N; cbn in N; apply NoDup_remove_2 in N; exact N). rewrite in_app_iff in Nx.
  destruct (split_cases _ _ _ _ _ _ E2) as [(Q1 & Q2 & Q3)|[(c & Q1 & Q2)|(c & Q1 & Q2)]].
  - inversion Q2; subst; auto.
  - exfalso. apply Nx. right. rewrite Q2, map_app. cbn. apply in_or_app. cbn. auto.
  - exfalso. apply Nx. left. rewrite Q1, map_app. cbn. apply in_or_app. cbn. auto.
Qed.
Lemma leaf_kids : forall x c0 L s, dep 1 (TI x c0 L) -> map eid (items s (TI x c0 L)) = rid c0 :: map snd (lnk L).
Proof.
  intros x c0 L s D. inversion D as [|? ? ? ? D0 DL]; subst. inversion D0; subst. cbn. f_equal. clear - DL. induction DL as [|[k t] L Dt DL IH]; cbn; auto.
  fold (fitems L) in *. rewrite map_app. cbn in Dt. inversion Dt; subst. cbn. f_equal. apply IH.
Qed.
Lemma nodup_mid : forall (a b c : list id), NoDup (a ++ b ++ c) -> NoDup b.
Proof. intros a b c H. apply nodup_r in H. clear a. induction b as [|y b IH]; cbn in *; constructor; inversion H; subst; auto. intros W. apply H2. apply in_or_app; auto. Qed.

Section Merge.
  Variable cmp : bytes -> bytes -> comparison.
  Hypothesis cmp_opp : forall a b, cmp b a = CompOpp (cmp a b).
  Hypothesis cmp_le_trans : forall a b c, cmp a b <> Gt -> cmp b c <> Gt -> cmp a c <> Gt.
  Notation klt := (klt cmp). Notation kle := (kle cmp). Notation ss := (ss cmp). Notation mlt := (mlt cmp). Notation routes := (routes cmp). Notation routes_at := (routes_at cmp).
  Notation core := (core cmp). Notation inv := (inv cmp).
  Variable weight : list rec -> N.
  Variables max_branches level_max : nat.

  Lemma merge_fin : forall p f c0 L h fresh level root fi la E', let T1 := TI (fid f) c0 L in
    dep 1 T1 -> pdep 1 p -> level = S (1 + length p) -> root = rid (plugs p T1) -> E' = items None (plugs p T1) ->
    hm h (inners T1 ++ pinn p (fid f)) -> NoDup (map fst (inners T1 ++ pinn p (fid f)) ++ map eid E') ->
    Forall (fun y => y < fresh) (map fst (inners T1 ++ pinn p (fid f)) ++ map eid E') ->
    chain h None E' None -> ss E' -> hdid E' None = Some fi -> lastid None E' = Some la ->
    exists h' level' root' T, merge_up max_branches (fid f) (map fid p) h level root = Ok (h', level', root') /\ E' = items None T /\ core h' fresh level' root' fi la T.
  Proof.
    intros p f c0 L h fresh level root fi la E' T1 D Dp Elev Eroot EE Hm Hn Hf Hc Hs Hfi Hla.
    destruct (merge_up_ok max_branches p 0 (fid f) c0 L h level root (map eid E')) as (h' & level' & root' & T & F1 & F2 & F3 & F4 & F5 & F6 & F7 & F8 & F9); auto.
    exists h', level', root', T. split; auto. split; [now rewrite F3|]. assert (ET : items None T = E') by (rewrite F3; auto).
    constructor; rewrite ?ET; auto.
    - apply (chain_frame E' h); auto. intros y Hy. apply F9. intros W. eapply (nodup_disj _ _ y Hn); eauto.
    - apply Forall_forall. intros y Hy. rewrite Forall_forall in Hf. apply Hf. apply in_app_or in Hy. apply in_or_app. destruct Hy as [Hy|Hy]; auto.
  Qed.

  Lemma merged_marks : forall PA LO a ars k b brs PB c, ss (PA ++ (LO, a, ars) :: (Some k, b, brs) :: PB) -> ss (PA ++ (LO, c, ars ++ brs) :: PB).
  Proof.
    intros PA LO a ars k b brs PB c H. unfold BtreeSort.ss in *. rewrite marks_app, !marks_cons in *. cbn [elo ers fst snd sep1] in *. rewrite mrs_app. rewrite <- !app_assoc.
    rewrite !app_assoc in H. rewrite <- (app_assoc _ (mrs brs)) in H. rewrite <- (app_assoc _ [MS k]) in H. apply SS_del in H. now rewrite <- !app_assoc in H.
  Qed.
  Lemma merged_routes : forall PA LO a ars k b brs PB c crs key z, NoDup (map eid (PA ++ (LO, a, ars) :: (Some k, b, brs) :: PB)) -> z = a \/ z = b ->
    routes (PA ++ (LO, a, ars) :: (Some k, b, brs) :: PB) key z -> routes (PA ++ (LO, c, crs) :: PB) key c.
  Proof.
    intros PA LO a ars k b brs PB c crs key z N Hz (A & lo & rs & B & E & R1 & R2 & R3). exists PA, LO, crs, PB. split; auto. destruct Hz as [->| ->].
    - destruct (nodup_split _ _ _ _ _ _ _ _ _ _ N eq_refl E) as (<- & <- & <- & <-). repeat split; auto. intros y Hy. apply R3. rewrite marks_cons. apply in_or_app. right. apply in_or_app. right. exact Hy.
    - assert (E0 : PA ++ (LO, a, ars) :: (Some k, b, brs) :: PB = (PA ++ [(LO, a, ars)]) ++ (Some k, b, brs) :: PB) by (rewrite <- app_assoc; reflexivity).
      destruct (nodup_split _ _ _ _ _ _ _ _ _ _ N E0 E) as (<- & <- & <- & <-). rewrite marks_app in R1. repeat split; auto.
      + intros y Hy. apply R1. apply in_or_app; auto.
      + destruct LO as [l|]; auto. apply R1. apply in_or_app. right. cbn. auto.
  Qed.
  Lemma merged_other : forall PA LO a ars k b brs PB c crs key z, ss (PA ++ (LO, c, crs) :: PB) -> hdsome (PA ++ (LO, a, ars) :: (Some k, b, brs) :: PB) -> hdlo (PA ++ (LO, a, ars) :: (Some k, b, brs) :: PB) = None -> z <> a -> z <> b ->
    routes (PA ++ (LO, a, ars) :: (Some k, b, brs) :: PB) key z -> routes (PA ++ (LO, c, crs) :: PB) key z.
  Proof.
    intros PA LO a ars k b brs PB c crs key z Hs Hd Hlo Na Nb R.
    apply (routes_repl cmp cmp_opp cmp_le_trans PA [(LO, a, ars); (Some k, b, brs)] [(LO, c, crs)] PB); auto; try discriminate.
    - destruct PA as [|e PA]; cbn in *; auto.
    - cbn. intros [?|[?|[]]]; congruence.
  Qed.

  (** The records of two neighbours under one parent in one leaf. *)
  Lemma pair_of : forall p g a k b h fresh level root fi la s0, core h fresh level root fi la (plugs p (plug2 g a k b)) -> s0 = plo None p -> pdep 1 p -> dep 1 (plug2 g a k b) ->
    exists ax ars bx brs, a = TL ax ars /\ b = TL bx brs /\
      items None (plugs p (plug2 g a k b)) = (ppre None p ++ fpre s0 g) ++ (flo s0 g, ax, ars) :: (Some k, bx, brs) :: (fpost g ++ ppost p) /\
      NoDup (fheir g ax :: map snd (flinks2 g ax k bx)) /\ h (fid g) = Some (Inner (fheir g ax) (flinks2 g ax k bx)).
  Proof.
    intros p g a k b h fresh level root fi la s0 [C1 C2 C3 C4 C5 C6 C7 C8 C9 C10] -> Dp D. pose proof (dep_unplug2 _ _ _ _ _ D) as (Da & Db & Dg).
    inversion Da as [ax ars|]; subst. inversion Db as [bx brs|]; subst. exists ax, ars, bx, brs. split; auto. split; auto. split.
    { rewrite items_plugs, items_plug2. cbn [items]. rewrite <- !app_assoc. reflexivity. }
    destruct (plug2_kids g (TL ax ars) k (TL bx brs)) as (c0 & L & EN & E0 & EL). cbn [rid] in E0, EL. split.
    - rewrite <- E0, <- EL. rewrite <- (leaf_kids (fid g) c0 L (plo None p)) by (rewrite <- EN; exact D). rewrite <- EN.
      apply nodup_r in C6. rewrite items_plugs, !map_app in C6. apply nodup_mid in C6. exact C6.
    - assert (Hin : hm h (inners (plug2 g (TL ax ars) k (TL bx brs)) ++ pinn p (rid (plug2 g (TL ax ars) k (TL bx brs))))) by (eapply hm_perm; [apply inners_plugs|exact C4]).
      apply hm_app in Hin. destruct Hin as [Hin _]. rewrite EN in Hin. cbn in Hin. apply hm_cons in Hin. destruct Hin as [Hin _]. cbn in Hin. now rewrite Hin, E0, EL.
  Qed.

  Lemma nodup_sub : forall (a b c d : list id), NoDup (a ++ b ++ c ++ d) -> NoDup (a ++ b ++ d).
  Proof.
    intros a b c d H. rewrite (app_assoc b) in H. rewrite (app_assoc a (b ++ c)) in H. rewrite (app_assoc a b c) in H.
    eapply Permutation_NoDup in H; [|apply Permutation_app_tail; apply Permutation_app_comm]. rewrite <- !app_assoc in H. apply nodup_r in H. exact H.
  Qed.

  Lemma merge_tail : forall p g a k b ax ars bx brs c h h3 fresh level root fi la fi' la',
    let E := items None (plugs p (plug2 g a k b)) in let PA := ppre None p ++ fpre (plo None p) g in let LO := flo (plo None p) g in let PB := fpost g ++ ppost p in
    core h fresh level root fi la (plugs p (plug2 g a k b)) -> pdep 1 p -> dep 1 (plug2 g a k b) -> level = S (1 + length p) -> a = TL ax ars -> b = TL bx brs -> c = ax \/ c = bx ->
    h3 (fid g) = Some (Inner (fheir g c) (flinks g c)) ->
    (forall y, In y (map fst (inners (plugs p (plug2 g a k b)))) -> y <> fid g -> h3 y = h y) ->
    chain h3 None (PA ++ (LO, c, ars ++ brs) :: PB) None ->
    hdid (PA ++ (LO, c, ars ++ brs) :: PB) None = Some fi' -> lastid None (PA ++ (LO, c, ars ++ brs) :: PB) = Some la' ->
    exists h' level' root' T, merge_up max_branches (fid g) (map fid p) h3 level root = Ok (h', level', root') /\
      PA ++ (LO, c, ars ++ brs) :: PB = items None T /\ core h' fresh level' root' fi' la' T.
  Proof.
    intros p g a k b ax ars bx brs c h h3 fresh level root fi la fi' la' E PA LO PB C Dp D Elev Ea Eb Hc Hg Hfr Hch Hfi Hla.
    destruct (pair_of p g a k b h fresh level root fi la _ C eq_refl Dp D) as (ax' & ars' & bx' & brs' & Ea' & Eb' & EE & _ & _). rewrite Ea in Ea'. rewrite Eb in Eb'. inversion Ea'; inversion Eb'; subst ax' ars' bx' brs'.
    fold E PA LO PB in EE. destruct C as [C1 C2 C3 C4 C5 C6 C7 C8 C9 C10]. fold E in C5, C6, C7, C8, C9, C10.
    pose proof (dep_unplug2 _ _ _ _ _ D) as (_ & _ & Dg).
    destruct (plug_kids g (TL c (ars ++ brs))) as (c0 & L & EN & E0 & EL).
    assert (Pin : Permutation (inners (plugs p (plug2 g a k b))) ((fid g, Inner (fheir g ax) (flinks2 g ax k bx)) :: fsib g ++ pinn p (fid g))).
    { rewrite inners_plugs, inners_plug2, rid_plug2. rewrite Ea, Eb. cbn. reflexivity. }
    assert (Pin2 : Permutation (inners (plug g (TL c (ars ++ brs))) ++ pinn p (fid g)) ((fid g, Inner (fheir g c) (flinks g c)) :: fsib g ++ pinn p (fid g))).
    { rewrite inners_plug. cbn. reflexivity. }
    assert (Pids : Permutation (map fst (inners (plugs p (plug2 g a k b)))) (map fst (inners (plug g (TL c (ars ++ brs))) ++ pinn p (fid g)))).
    { rewrite (Permutation_map fst Pin), (Permutation_map fst Pin2). reflexivity. }
    assert (EidE : map eid E = map eid PA ++ ax :: bx :: map eid PB) by (rewrite EE, map_app; reflexivity).
    assert (EidE' : map eid (PA ++ (LO, c, ars ++ brs) :: PB) = map eid PA ++ c :: map eid PB) by (rewrite map_app; reflexivity).
    apply (merge_fin p g c0 L h3 fresh level root fi' la'); auto.
    - rewrite <- EN. apply dep_plug; auto. constructor.
    - rewrite <- EN, <- C1. apply rid_plugs. now rewrite rid_plug, rid_plug2.
    - rewrite <- EN, items_plugs, items_plug. cbn [items]. unfold PA, LO, PB. now rewrite <- !app_assoc.
    - rewrite <- EN. eapply hm_perm; [symmetry; exact Pin2|]. apply hm_cons. split; auto. eapply hm_perm in C4; [|exact Pin]. apply hm_cons in C4. destruct C4 as [_ C4]. apply (hm_frame h); auto.
      intros y Hy. apply Hfr. + eapply Permutation_in; [apply Permutation_map; symmetry; exact Pin|]. cbn. auto.
      + intros ->. clear - C6 Pin Hy. assert (N : NoDup (map fst (inners (plugs p (plug2 g a k b))))). { apply (nodup_mid [] _ (map eid E)). exact C6. } eapply Permutation_NoDup in N; [|apply Permutation_map; exact Pin]. cbn in N. inversion N; subst. auto.
    - rewrite <- EN. eapply nodup_perm; [exact Pids|]. rewrite EidE'. rewrite EidE in C6. destruct Hc as [-> | ->].
      + change (ax :: bx :: map eid PB) with ([ax] ++ [bx] ++ map eid PB) in C6. rewrite app_assoc in C6. rewrite (app_assoc _ [ax]) in C6. apply (nodup_sub _ [] [bx]) in C6. cbn in C6. rewrite <- !app_assoc in C6. exact C6.
      + change (ax :: bx :: map eid PB) with ([ax] ++ (bx :: map eid PB)) in C6. apply nodup_sub in C6. exact C6.
    - rewrite <- EN. apply Forall_forall. intros y Hy. rewrite Forall_forall in C7. apply C7. apply in_app_or in Hy. apply in_or_app. destruct Hy as [Hy|Hy].
      + left. eapply Permutation_in; [symmetry; exact Pids|exact Hy].
      + right. rewrite EidE' in Hy. rewrite EidE. apply in_app_or in Hy. apply in_or_app. destruct Hy as [Hy|[Hy|Hy]]; auto; right; cbn; auto. destruct Hc; subst; auto.
    - apply (merged_marks _ _ ax _ k bx). rewrite EE in C8. exact C8.
  Qed.

  Lemma move_key : forall x q i, it_key (move_iter x q i) = it_key i.
  Proof. intros x q [[k [z|]]|]; auto. unfold move_iter. destruct (Nat.eqb z x); auto. Qed.

  Lemma merge_ok : forall s done E A lo x rs B k, inv s done E -> E = A ++ (lo, x, rs) :: B -> routes_at A lo B k -> x <> b_root s ->
    merge cmp weight max_branches level_max s x k = Ub DeepTree \/
    exists s' E', merge cmp weight max_branches level_max s x k = Ok s' /\ inv s' (x :: done) E' /\ same s s' E E'.
  Proof.
    intros s done E A lo x rs B k [(t & Et & Hc) Hnum Hits Hre] EE R Hroot. pose proof (descent_inv cmp cmp_opp cmp_le_trans _ _ _ _ _ _ _ k Hc) as (p & x' & rs' & Ept & Htr & _ & Hpd & Hpl & Eit & R').
    assert (Hd : hdsome E) by (rewrite Et; apply hdsome_items).
    rewrite <- Et in Eit. destruct (routes_unique cmp cmp_opp _ _ _ _ _ _ _ _ _ _ _ k Hd EE Eit R R') as (EA & Elo & <- & <- & EB).
    unfold merge, b_trace. destruct (Nat.leb (b_level s - 1) level_max); [|left; reflexivity]. right. cbn [bind]. rewrite Htr. cbn [bind]. rewrite app_nil_r.
    destruct p as [|f p]. { exfalso. cbn in Ept. apply Hroot. rewrite <- (c_rid _ _ _ _ _ _ _ _ Hc), Ept. reflexivity. }
    cbn [map plugs length pdep] in *. destruct Hpd as [Hfd Hpd].
    assert (Elev : b_level s = S (1 + length p)) by (pose proof (c_lev _ _ _ _ _ _ _ _ Hc); lia).
    assert (Df : dep 1 (plug f (TL x rs))) by (apply dep_plug; auto; constructor).
    assert (Nids : NoDup (map eid E)) by (eapply nodup_r; rewrite Et; apply (c_nd _ _ _ _ _ _ _ _ Hc)).
    destruct (plug_kids f (TL x rs)) as (c0 & L & EN & Ec0 & EL). cbn [rid] in Ec0, EL.
    assert (Kn : NoDup (kid_ids f x)).
    { unfold kid_ids. rewrite <- Ec0, <- EL. rewrite <- (leaf_kids (fid f) c0 L (plo None p)) by (rewrite <- EN; exact Df). rewrite <- EN. rewrite Et, Ept, items_plugs, !map_app in Nids. apply nodup_mid in Nids. exact Nids. }
    assert (Hpin : hm (b_h s) (inners (plug f (TL x rs)) ++ pinn p (fid f))).
    { pose proof (c_hm _ _ _ _ _ _ _ _ Hc) as W. rewrite Ept in W. eapply hm_perm in W; [|apply inners_plugs]. now rewrite rid_plug in W. }
    assert (Hpar : b_h s (fid f) = Some (Inner (fheir f x) (flinks f x))).
    { pose proof Hpin as W. apply hm_app in W. destruct W as [W _]. rewrite EN in W. cbn in W. apply hm_cons in W. destruct W as [W _]. cbn in W. now rewrite W, Ec0, EL. }
    unfold inner_at at 1. rewrite Hpar. cbn [bind].
    pose proof (c_chain _ _ _ _ _ _ _ _ Hc) as Hch. rewrite <- Et in Hch. pose proof Hch as Hch0. rewrite EE in Hch0. rewrite (chain_at _ _ _ _ _ _ Hch0). cbn [bind]. clear Hch0.
    pose proof (sibs_spec f (TL x rs) Kn) as Hsib. cbn [rid] in Hsib. rewrite Hsib, next_hd. clear Hsib.
    pose proof (next_split_spec f (TL x rs)) as NS. pose proof (prev_split_spec f (TL x rs)) as PS.
    assert (Hhdlo : hdlo E = None) by (rewrite Et; apply items_hdlo).
    assert (Inn : forall y, In y (map fst (inners t)) -> In y (map eid E) -> False).
    { intros y H1 H2. pose proof (c_nd _ _ _ _ _ _ _ _ Hc) as W. rewrite <- Et in W. eapply (nodup_disj _ _ y W); eauto. }
    assert (Finn : In (fid f) (map fst (inners t))).
    { rewrite Ept. eapply Permutation_in; [apply Permutation_map; symmetry; apply inners_plugs|]. rewrite EN. cbn. auto. }
    assert (Fss : ss E) by (rewrite Et; apply (c_ss _ _ _ _ _ _ _ _ Hc)).
    assert (Ffirst : hdid E None = Some (b_first s)) by (rewrite Et; apply (c_first _ _ _ _ _ _ _ _ Hc)).
    assert (Flast : lastid None E = Some (b_last s)) by (rewrite Et; apply (c_last _ _ _ _ _ _ _ _ Hc)).
    (* the neighbours *)
    assert (Prev : forall g q kq, prev_split f = Some (g, q, kq) -> exists qx qrs PA LO PB, q = TL qx qrs /\ A = PA ++ [(LO, qx, qrs)] /\ lo = Some kq /\ B = PB /\
       PA = ppre None p ++ fpre (plo None p) g /\ LO = flo (plo None p) g /\ PB = fpost g ++ ppost p /\
       t = plugs p (plug2 g q kq (TL x rs)) /\ dep 1 (plug2 g q kq (TL x rs)) /\ fid g = fid f /\ NoDup (fheir g qx :: map snd (flinks2 g qx kq x)) /\ fheir f x = fheir g qx /\ flinks f x = flinks2 g qx kq x).
    { intros g q kq Eg. rewrite Eg in PS. destruct PS as (E1 & E2 & E3). pose proof (plug_plug2 _ _ _ _ _ _ E1) as (G1 & G2 & G3).
      rewrite E1 in Df, Ept. rewrite Ept in Hc. destruct (pair_of p g q kq (TL x rs) _ _ _ _ _ _ _ Hc eq_refl Hpd Df) as (qx & qrs & bx & brs & -> & Eb & EI & N1 & _). inversion Eb; subst bx brs.
      exists qx, qrs, (ppre None p ++ fpre (plo None p) g), (flo (plo None p) g), (fpost g ++ ppost p). split; auto.
      rewrite <- Ept, <- Et in EI. assert (EI2 : E = ((ppre None p ++ fpre (plo None p) g) ++ [(flo (plo None p) g, qx, qrs)]) ++ (Some kq, x, rs) :: (fpost g ++ ppost p)) by (rewrite EI, <- (app_assoc _ [_]); reflexivity).
      destruct (nodup_split _ _ _ _ _ _ _ _ _ _ Nids EE EI2) as (-> & -> & _ & ->). repeat split; auto. }
    assert (Next : forall g z kz, next_split f = Some (kz, z, g) -> exists zx zrs PB, z = TL zx zrs /\ B = (Some kz, zx, zrs) :: PB /\
       A = ppre None p ++ fpre (plo None p) g /\ lo = flo (plo None p) g /\ PB = fpost g ++ ppost p /\
       t = plugs p (plug2 g (TL x rs) kz z) /\ dep 1 (plug2 g (TL x rs) kz z) /\ fid g = fid f /\ NoDup (fheir g x :: map snd (flinks2 g x kz zx)) /\ fheir f x = fheir g x /\ flinks f x = flinks2 g x kz zx).
    { intros g z kz Eg. rewrite Eg in NS. destruct NS as (E1 & E2 & E3). pose proof (plug_plug2 _ _ _ _ _ _ E1) as (G1 & G2 & G3).
      rewrite E1 in Df, Ept. rewrite Ept in Hc. destruct (pair_of p g (TL x rs) kz z _ _ _ _ _ _ _ Hc eq_refl Hpd Df) as (ax & ars & zx & zrs & Ea & -> & EI & N1 & _). inversion Ea; subst ax ars.
      exists zx, zrs, (fpost g ++ ppost p). split; auto.
      rewrite <- Ept, <- Et in EI. destruct (nodup_split _ _ _ _ _ _ _ _ _ _ Nids EE EI) as (-> & -> & _ & ->). repeat split; auto. }
    clear PS NS.
    assert (NxAB : ~ In x (map eid A ++ map eid B)) by (rewrite EE, map_app in Nids; cbn in Nids; apply NoDup_remove_2 in Nids; exact Nids).
    rewrite in_app_iff in NxAB.
    (* into the previous leaf *)
    assert (IntoPrev : forall g q kq nn, prev_split f = Some (g, q, kq) -> (nn = None \/ exists z, nn = Some z /\ hdid B None = Some z) -> exists qx qrs, q = TL qx qrs /\ leaf_at (b_h s) qx = Ok (lastid None (removelast A), Some x, qrs) /\ forall qp, qp = lastid None (removelast A) -> exists s' E',
        (h2 <~ match hdid B None with None => Ok (updn (b_h s) qx (Some (Leaf qp (hdid B None) (qrs ++ rs)))) | Some _ => set_prev (updn (b_h s) qx (Some (Leaf qp (hdid B None) (qrs ++ rs)))) (match nn with Some z => Some z | None => hdid B None end) (Some qx) end ;;
            let h3 := updn (updn h2 (fid f) (Some (Inner (fheir f x) (join_prev (flinks f x) x)))) x None in
            '(h4, level, root) <~ merge_up max_branches (fid f) (map fid p) h3 (b_level s) (b_root s) ;;
            Ok (mkB h4 (b_fresh s) level root (b_first s) (if Nat.eqb (b_last s) x then qx else b_last s) (b_reorg s) (b_num s)
                 (fun j => move_iter x qx (b_its s j)))) = Ok s' /\ inv s' (x :: done) E' /\ same s s' E E').
    { intros g q kq nn Eg Hnn. destruct (Prev _ _ _ Eg) as (qx & qrs & PA & LO & PB & -> & EA1 & Elo1 & EB1 & EPA & ELO & EPB & Et2 & D2 & Efg & N2 & Gh & Gl).
      exists qx, qrs. split; auto.
      assert (EEq : E = PA ++ (LO, qx, qrs) :: (Some kq, x, rs) :: PB) by (rewrite EE, EA1, Elo1, EB1, <- app_assoc; reflexivity).
      assert (Erl : removelast A = PA) by (rewrite EA1; apply removelast_last). rewrite Erl.
      assert (Hch1 := Hch). rewrite EEq in Hch1. split; [rewrite (chain_at _ _ _ _ _ _ Hch1); reflexivity|]. intros qp ->.
      assert (Hset : forall h1, h1 = updn (b_h s) qx (Some (Leaf (lastid None PA) (hdid B None) (qrs ++ rs))) -> match hdid B None with None => Ok h1 | Some _ => set_prev h1 (match nn with Some z => Some z | None => hdid B None end) (Some qx) end = set_prev h1 (hdid B None) (Some qx)).
      { intros h1 _. destruct Hnn as [->|(z & -> & ->)]; auto. destruct (hdid B None); reflexivity. }
      rewrite (Hset _ eq_refl). clear Hset. rewrite EB1. rewrite EB1 in NxAB.
      assert (Nq : NoDup (map eid PA ++ qx :: x :: map eid PB)) by (rewrite EEq, map_app in Nids; exact Nids).
      assert (NqA : ~ In qx (map eid PA) /\ ~ In qx (map eid PB) /\ qx <> x).
      { apply NoDup_remove_2 in Nq. rewrite in_app_iff in Nq. cbn in Nq. repeat split; intros W; apply Nq; auto. }
      assert (NPB : NoDup (map eid PB)) by (apply nodup_r in Nq; inversion Nq; subst; inversion H2; auto).
      assert (NxA : ~ In x (map eid PA)). { intros W. apply NxAB. left. rewrite EA1, map_app. apply in_or_app; auto. }
      apply chain_app in Hch1. destruct Hch1 as [ChA ChB]. cbn [chain] in ChB. destruct ChB as (_ & _ & ChB).
      set (h1 := updn (b_h s) qx (Some (Leaf (lastid None PA) (hdid PB None) (qrs ++ rs)))).
      destruct (set_prev_ok PB h1 (Some x) None (Some qx)) as (h2 & Eh2 & Ch2 & Fr2); auto. { unfold h1. apply chain_upd; tauto. }
      rewrite Eh2. cbn [bind]. cbv zeta.
      assert (HdB : forall z, hdid PB None = Some z -> In z (map eid PB)) by (intros z Hz; destruct PB as [|e PB']; [discriminate|]; inversion Hz; cbn; auto).
      assert (Jp : join_prev (flinks f x) x = flinks g qx). { rewrite Gl. apply (join_prev_plug g (TL qx qrs) kq (TL x rs)). exact N2. }
      rewrite Jp, Gh. set (h3 := updn (updn h2 (fid f) (Some (Inner (fheir g qx) (flinks g qx)))) x None).
      assert (NfE : ~ In (fid f) (map eid E)) by (intros W; eapply Inn; eauto).
      assert (NfE2 : ~ In (fid f) (map eid PA) /\ fid f <> qx /\ fid f <> x /\ ~ In (fid f) (map eid PB)).
      { rewrite EEq, map_app, in_app_iff in NfE. cbn in NfE. repeat split; intros W; apply NfE; auto. }
      destruct NfE2 as (Nf1 & Nf2 & Nf3 & Nf4).
      destruct (merge_tail p g (TL qx qrs) kq (TL x rs) qx qrs x rs qx (b_h s) h3 (b_fresh s) (b_level s) (b_root s) (b_first s) (b_last s) (b_first s) (if Nat.eqb (b_last s) x then qx else b_last s)) as (h4 & level' & root' & T & M1 & M2 & M3); auto.
      - rewrite <- Et2. exact Hc.
      - unfold h3. rewrite Efg. rewrite updn_neq by auto. apply updn_eq.
      - rewrite <- Et2. intros y Hy Ny. rewrite Efg in Ny. assert (NyE : ~ In y (map eid E)) by (intros W; eapply Inn; eauto). rewrite EEq, map_app, in_app_iff in NyE. cbn in NyE.
        unfold h3. rewrite !updn_neq; auto; [|intros ->; apply NyE; auto]. rewrite Fr2. + unfold h1. apply updn_neq. intros ->. apply NyE; auto. + intros W. apply HdB in W. apply NyE; auto.
      - rewrite <- EPA, <- ELO, <- EPB. apply chain_app. split; [|cbn [chain]; split].
        + cbn [hdid]. apply (chain_frame PA (b_h s)); [|exact ChA]. intros y Hy. unfold h3. rewrite !updn_neq; [| |]; try (intros ->; tauto). rewrite Fr2. * unfold h1. apply updn_neq. intros ->. tauto.
          * intros W. apply HdB in W. eapply (nodup_disj _ _ y Nq); cbn; eauto.
        + unfold h3. rewrite 2 updn_neq by (first [tauto | congruence]). rewrite Fr2 by (intros W; apply HdB in W; tauto). unfold h1. apply updn_eq.
        + unfold h3. apply chain_upd; [tauto|]. apply chain_upd; auto.
      - rewrite <- EPA, <- ELO, <- EPB. rewrite <- Ffirst, EEq, !hdid_app. reflexivity.
      - rewrite <- EPA, <- ELO, <- EPB. rewrite EEq in Flast. rewrite lastid_app, !lastid_cons in Flast. cbn [eid fst snd] in Flast. rewrite lastid_app, lastid_cons. cbn [eid fst snd].
        destruct PB as [|e PB']. + cbn in *. inversion Flast as [W]. now rewrite Nat.eqb_refl.
        + rewrite lastid_cons in *. rewrite Flast. destruct (Nat.eqb (b_last s) x) eqn:Eb; auto. apply Nat.eqb_eq in Eb. exfalso. apply lastid_in in Flast. apply NxAB. right. rewrite <- Eb. cbn. destruct Flast as [W|W]; auto. inversion W; auto.
      - rewrite Efg in M1. rewrite M1. cbn [bind]. rewrite <- EPA, <- ELO, <- EPB in M2. set (E' := PA ++ (LO, qx, qrs ++ rs) :: PB) in *.
        assert (Hrecs : recs E' = recs E) by (unfold E'; rewrite EEq, !recs_app; cbn; now rewrite <- app_assoc).
        assert (Hss' : ss E') by (unfold E'; apply (merged_marks _ _ qx _ kq x); rewrite EEq in Fss; exact Fss).
        assert (Hat : forall k0 z, z = qx \/ z = x -> routes E k0 z -> routes E' k0 qx). { intros k0 z Hz Hr. unfold E'. rewrite EEq in Hr, Nids. eapply merged_routes; eauto. }
        assert (Hother : forall k0 z, z <> qx -> z <> x -> routes E k0 z -> routes E' k0 z). { intros k0 z Hz1 Hz2 Hr. unfold E'. rewrite EEq in Hr, Hd, Hhdlo. eapply merged_other; eauto. }
        assert (Hkeep : forall k0 z, z <> x -> routes E k0 z -> routes E' k0 z). { intros k0 z Hz Hr. destruct (Nat.eq_dec z qx) as [->|Hq]; eauto. }
        eexists. exists E'. split; [reflexivity|]. split; [|split; [exact Hrecs|repeat split]].
        + constructor; cbn [b_h b_fresh b_level b_root b_first b_last b_num b_its b_reorg].
          * exists T. split; auto.
          * now rewrite Hrecs.
          * intros j k0 z Hj. unfold move_iter in Hj. destruct (b_its s j) as [[k1 [z1|]]|] eqn:Ej; [|discriminate|discriminate]. pose proof (Hits _ _ _ Ej) as Hr.
            destruct (Nat.eqb z1 x) eqn:Ez; [apply Nat.eqb_eq in Ez; subst z1|apply Nat.eqb_neq in Ez]; inversion Hj; subst; eauto.
          * intros z k0 Hz Nz. assert (z <> x) by (intros ->; apply Nz; cbn; auto). apply Hkeep; auto. apply Hre; auto. intros W. apply Nz. cbn. auto.
        + intros j. cbn. apply move_key. }
    (* into the next leaf *)
    assert (IntoNext : forall g z kz np, next_split f = Some (kz, z, g) -> (np = None \/ exists q, np = Some q /\ lastid None A = Some q) -> exists zx zrs, z = TL zx zrs /\ leaf_at (b_h s) zx = Ok (Some x, hdid (tl B) None, zrs) /\ hdid B None = Some zx /\ forall pp zn, pp = lastid None A -> zn = hdid (tl B) None -> exists s' E',
        (h2 <~ match pp with None => Ok (updn (b_h s) zx (Some (Leaf pp zn (rs ++ zrs)))) | Some _ => set_next (updn (b_h s) zx (Some (Leaf pp zn (rs ++ zrs)))) (match np with Some q => Some q | None => pp end) (Some zx) end ;;
            '(pe', pls') <~ join_next (fheir f x) (flinks f x) x zx ;;
            let h3 := updn (updn h2 (fid f) (Some (Inner pe' pls'))) x None in
            '(h4, level, root) <~ merge_up max_branches (fid f) (map fid p) h3 (b_level s) (b_root s) ;;
            Ok (mkB h4 (b_fresh s) level root (if Nat.eqb (b_first s) x then zx else b_first s) (b_last s) (b_reorg s) (b_num s)
                 (fun j => move_iter x zx (b_its s j)))) = Ok s' /\ inv s' (x :: done) E' /\ same s s' E E').
    { intros g z kz np Eg Hnp. destruct (Next _ _ _ Eg) as (zx & zrs & PB & -> & EB1 & EPA & ELO & EPB & Et2 & D2 & Efg & N2 & Gh & Gl).
      exists zx, zrs. split; auto.
      assert (EEq : E = A ++ (lo, x, rs) :: (Some kz, zx, zrs) :: PB) by (rewrite EE, EB1; reflexivity). rewrite EB1. cbn [tl hdid eid fst snd].
      assert (Hch1 := Hch). rewrite EEq in Hch1. split. { change (A ++ (lo, x, rs) :: (Some kz, zx, zrs) :: PB) with (A ++ [(lo, x, rs)] ++ (Some kz, zx, zrs) :: PB) in Hch1. rewrite app_assoc in Hch1. rewrite (chain_at _ _ _ _ _ _ Hch1), lastid_app. reflexivity. }
      split; auto. intros pp zn -> ->.
      assert (Hset : forall h1, match lastid None A with None => Ok h1 | Some _ => set_next h1 (match np with Some q => Some q | None => lastid None A end) (Some zx) end = set_next h1 (lastid None A) (Some zx)).
      { intros h1. destruct Hnp as [->|(q & -> & ->)]; auto. destruct (lastid None A); reflexivity. }
      rewrite Hset. clear Hset. rewrite EB1 in NxAB. cbn in NxAB.
      assert (Nq : NoDup (map eid A ++ x :: zx :: map eid PB)) by (rewrite EEq, map_app in Nids; exact Nids).
      assert (NzA : ~ In zx (map eid A) /\ ~ In zx (map eid PB) /\ zx <> x).
      { change (x :: zx :: map eid PB) with ([x] ++ zx :: map eid PB) in Nq. rewrite app_assoc in Nq. apply NoDup_remove_2 in Nq. rewrite !in_app_iff in Nq. cbn in Nq. repeat split; intros W; apply Nq; auto. }
      assert (NA : NoDup (map eid A)) by (apply (nodup_mid [] _ _ Nq)).
      apply chain_app in Hch1. destruct Hch1 as [ChA ChB]. cbn [chain hdid eid fst snd] in ChA, ChB. destruct ChB as (_ & _ & ChB).
      set (h1 := updn (b_h s) zx (Some (Leaf (lastid None A) (hdid PB None) (rs ++ zrs)))).
      assert (Hs : exists h2, set_next h1 (lastid None A) (Some zx) = Ok h2 /\ chain h2 None A (Some zx) /\ (forall y, lastid None A <> Some y -> h2 y = h1 y)).
      { destruct A as [|e A']. - exists h1. repeat split; auto. - eapply set_next_ok; auto; [|discriminate]. unfold h1. apply chain_upd; [tauto|exact ChA]. }
      destruct Hs as (h2 & Eh2 & Ch2 & Fr2). rewrite Eh2. cbn [bind].
      assert (Hla : forall y, lastid None A = Some y -> In y (map eid A)) by (intros y Hy; apply lastid_in in Hy; destruct Hy; [discriminate|auto]).
      assert (Jn : join_next (fheir f x) (flinks f x) x zx = Ok (fheir g zx, flinks g zx)). { rewrite Gh, Gl. apply (join_next_plug g (TL x rs) kz (TL zx zrs)). exact N2. }
      rewrite Jn. cbn [bind]. cbv zeta. set (h3 := updn (updn h2 (fid f) (Some (Inner (fheir g zx) (flinks g zx)))) x None).
      assert (NfE : ~ In (fid f) (map eid E)) by (intros W; eapply Inn; eauto).
      assert (NfE2 : ~ In (fid f) (map eid A) /\ fid f <> zx /\ fid f <> x /\ ~ In (fid f) (map eid PB)).
      { rewrite EEq, map_app, in_app_iff in NfE. cbn in NfE. repeat split; intros W; apply NfE; auto. }
      destruct NfE2 as (Nf1 & Nf2 & Nf3 & Nf4).
      destruct (merge_tail p g (TL x rs) kz (TL zx zrs) x rs zx zrs zx (b_h s) h3 (b_fresh s) (b_level s) (b_root s) (b_first s) (b_last s) (if Nat.eqb (b_first s) x then zx else b_first s) (b_last s)) as (h4 & level' & root' & T & M1 & M2 & M3); auto.
      - rewrite <- Et2. exact Hc.
      - unfold h3. rewrite Efg. rewrite updn_neq by auto. apply updn_eq.
      - rewrite <- Et2. intros y Hy Ny. rewrite Efg in Ny. assert (NyE : ~ In y (map eid E)) by (intros W; eapply Inn; eauto). rewrite EEq, map_app, in_app_iff in NyE. cbn in NyE.
        unfold h3. rewrite 2 updn_neq; auto; try (intros ->; apply NyE; auto; fail). rewrite Fr2. + unfold h1. apply updn_neq. intros ->. apply NyE; auto. + intros W. apply Hla in W. apply NyE; auto.
      - rewrite <- EPA, <- ELO, <- EPB. apply chain_app. split; [|cbn [chain]; split].
        + cbn [hdid eid fst snd]. unfold h3. apply chain_upd; [tauto|]. apply chain_upd; auto.
        + unfold h3. rewrite 2 updn_neq by (first [tauto | congruence]). rewrite Fr2 by (intros W; apply Hla in W; tauto). unfold h1. apply updn_eq.
        + apply (chain_frame PB (b_h s)); [|exact ChB]. intros y Hy. unfold h3. rewrite !updn_neq; [| |]; try (intros ->; tauto). rewrite Fr2. * unfold h1. apply updn_neq. intros ->. tauto.
          * intros W. apply Hla in W. eapply (nodup_disj _ _ y Nq); cbn; eauto.
      - rewrite <- EPA, <- ELO, <- EPB. rewrite EEq in Ffirst. destruct A as [|e A']. + cbn in *. inversion Ffirst as [W]. now rewrite Nat.eqb_refl.
        + cbn [app hdid] in *. rewrite Ffirst. destruct (Nat.eqb (b_first s) x) eqn:Eb; auto. apply Nat.eqb_eq in Eb. exfalso. apply NxAB. left. rewrite <- Eb. inversion Ffirst. cbn. auto.
      - rewrite <- EPA, <- ELO, <- EPB. rewrite EEq in Flast. rewrite lastid_app, !lastid_cons in Flast. cbn [eid fst snd] in Flast. rewrite lastid_app, lastid_cons. exact Flast.
      - rewrite Efg in M1. rewrite M1. cbn [bind]. rewrite <- EPA, <- ELO, <- EPB in M2. set (E' := A ++ (lo, zx, rs ++ zrs) :: PB) in *.
        assert (Hrecs : recs E' = recs E) by (unfold E'; rewrite EEq, !recs_app; cbn; now rewrite <- app_assoc).
        assert (Hss' : ss E') by (unfold E'; apply (merged_marks _ _ x _ kz zx); rewrite EEq in Fss; exact Fss).
        assert (Hat : forall k0 y, y = x \/ y = zx -> routes E k0 y -> routes E' k0 zx). { intros k0 y Hy Hr. unfold E'. rewrite EEq in Hr, Nids. eapply merged_routes; eauto. }
        assert (Hother : forall k0 y, y <> x -> y <> zx -> routes E k0 y -> routes E' k0 y). { intros k0 y Hy1 Hy2 Hr. unfold E'. rewrite EEq in Hr, Hd, Hhdlo. eapply merged_other; eauto. }
        assert (Hkeep : forall k0 y, y <> x -> routes E k0 y -> routes E' k0 y). { intros k0 y Hy Hr. destruct (Nat.eq_dec y zx) as [->|Hq]; eauto. }
        eexists. exists E'. split; [reflexivity|]. split; [|split; [exact Hrecs|repeat split]].
        + constructor; cbn [b_h b_fresh b_level b_root b_first b_last b_num b_its b_reorg].
          * exists T. split; auto.
          * now rewrite Hrecs.
          * intros j k0 y Hj. unfold move_iter in Hj. destruct (b_its s j) as [[k1 [z1|]]|] eqn:Ej; [|discriminate|discriminate]. pose proof (Hits _ _ _ Ej) as Hr.
            destruct (Nat.eqb z1 x) eqn:Ez; [apply Nat.eqb_eq in Ez; subst z1|apply Nat.eqb_neq in Ez]; inversion Hj; subst; eauto.
          * intros y k0 Hy Ny. assert (y <> x) by (intros ->; apply Ny; cbn; auto). apply Hkeep; auto. apply Hre; auto. intros W. apply Ny. cbn. auto.
        + intros j. cbn. apply move_key. }
    destruct (prev_split f) as [[[g q] kq]|] eqn:Epr; destruct (next_split f) as [[[kz z] g2]|] eqn:Enx.
    - destruct (IntoNext g2 z kz (Some (rid q)) eq_refl) as (zx & zrs & -> & Hz & HzB & Rn). { right. exists (rid q). split; auto. destruct (Prev _ _ _ eq_refl) as (qx & qrs & PA & LO & PB & -> & -> & _). now rewrite lastid_app. }
      destruct (IntoPrev g q kq (Some zx) eq_refl) as (qx & qrs & -> & Hq & Rp). { right. eauto. }
      cbn [rid bind]. rewrite Hq. cbn [bind]. rewrite Hz. cbn [bind]. cbv zeta. destruct (weight qrs <=? weight zrs)%N.
      + apply Rp; auto.
      + apply (Rn (lastid None A) (hdid (tl B) None)); auto.
    - destruct (IntoPrev g q kq None eq_refl) as (qx & qrs & -> & Hq & Rp). { auto. } cbn [rid bind]. rewrite Hq. cbn [bind]. cbv zeta. apply Rp; auto.
    - destruct (IntoNext g2 z kz None eq_refl) as (zx & zrs & -> & Hz & HzB & Rn). { auto. } cbn [rid bind]. rewrite Hz. cbn [bind]. cbv zeta. apply (Rn (lastid None A) (hdid (tl B) None)); auto.
    - cbn [bind]. cbv zeta.
      destruct (merge_fin p f c0 L (b_h s) (b_fresh s) (b_level s) (b_root s) (b_first s) (b_last s) E) as (h4 & level' & root' & T & M1 & M2 & M3); auto.
      + rewrite <- EN. exact Df.
      + rewrite <- EN, <- Ept. symmetry. apply (c_rid _ _ _ _ _ _ _ _ Hc).
      + rewrite <- EN, <- Ept. exact Et.
      + rewrite <- EN. exact Hpin.
      + rewrite <- EN. pose proof (c_nd _ _ _ _ _ _ _ _ Hc) as W. rewrite <- Et in W. eapply nodup_perm; [|exact W]. rewrite Ept. rewrite (Permutation_map fst (inners_plugs p _)). now rewrite rid_plug.
      + rewrite <- EN. pose proof (c_fr _ _ _ _ _ _ _ _ Hc) as W. rewrite <- Et in W. apply Forall_forall. intros y Hy. rewrite Forall_forall in W. apply W. apply in_app_or in Hy. apply in_or_app. destruct Hy as [Hy|Hy]; auto. left. rewrite Ept.
        eapply Permutation_in; [apply Permutation_map; symmetry; apply inners_plugs|]. now rewrite rid_plug.
      + rewrite M1. cbn [bind]. eexists. exists E. split; [reflexivity|]. split; [|repeat split].
        constructor; cbn [b_h b_fresh b_level b_root b_first b_last b_num b_its b_reorg]; auto. * exists T. auto. * intros y k0 Hy Ny. apply Hre; auto. intros W. apply Ny. cbn. auto.
  Qed.
End Merge.
