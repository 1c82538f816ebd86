(** The invariant of the B+ tree; DivideNodes keeps it and the records. *)
From Coq Require Import List NArith ZArith Bool Lia Arith Permutation Sorting.Sorted.
Import ListNotations.
From Verif Require Import Bytes DbmModel BtreeModel BtreeTree BtreeSort BtreeUp.

(** * The chain of leaves *)
Definition hdid (E : list ent) (e : option id) : option id := match E with [] => e | x :: _ => Some (eid x) end.
Definition lastid (p : option id) (E : list ent) : option id := last (map (fun x => Some (eid x)) E) p.
Fixpoint chain (h : heap) (p : option id) (E : list ent) (e : option id) : Prop :=
  match E with
  | [] => True
  | (_, x, rs) :: r => h x = Some (Leaf p (hdid r e) rs) /\ chain h (Some x) r e
  end.
Lemma hdid_app : forall A B e, hdid (A ++ B) e = hdid A (hdid B e).
Proof. intros [|a A] B e; auto. Qed.
Lemma lastid_app : forall A B p, lastid p (A ++ B) = lastid (lastid p A) B.
Proof.
  intros A B p. unfold lastid. rewrite map_app. destruct B as [|b B]; cbn [map].
  - rewrite app_nil_r. cbn. auto.
  - generalize (Some (eid b)) as z. generalize (map (fun x => Some (eid x)) B) as l. generalize (map (fun x => Some (eid x)) A) as a. clear. intros a l z.
    assert (forall (u : list (option id)) v w d1 d2, last (u ++ v :: w) d1 = last (v :: w) d2) as W.
    { induction u as [|u0 u IH]; intros v w d1 d2. - cbn [app]. clear. revert v. induction w as [|w0 w IH]; intros v; cbn; auto. apply (IH w0). - cbn [app]. specialize (IH v w d1 d2). destruct (u ++ v :: w) eqn:E; [destruct u; discriminate|]. cbn in *. exact IH. }
    apply W.
Qed.
Lemma lastid_cons : forall e E p, lastid p (e :: E) = lastid (Some (eid e)) E.
Proof. intros. change (e :: E) with ([e] ++ E). now rewrite lastid_app. Qed.
Lemma lastid_in : forall E p y, lastid p E = Some y -> p = Some y \/ In y (map eid E).
Proof. induction E as [|e E IH]; intros p y H; [auto|]. rewrite lastid_cons in H. apply IH in H. cbn. destruct H as [H|H]; auto. inversion H; auto. Qed.
Lemma chain_app : forall A B h p e, chain h p (A ++ B) e <-> chain h p A (hdid B e) /\ chain h (lastid p A) B e.
Proof.
  induction A as [|[[lo x] rs] A IH]; intros B h p e; cbn [app chain].
  - cbn. tauto.
  - rewrite IH, hdid_app, lastid_cons. cbn [eid snd fst]. tauto.
Qed.
Lemma chain_frame : forall E h h' p e, (forall y, In y (map eid E) -> h' y = h y) -> chain h p E e -> chain h' p E e.
Proof. induction E as [|[[lo x] rs] E IH]; intros h h' p e F H; cbn in *; auto. destruct H as [H1 H2]. split. - rewrite F; auto. - apply (IH h); auto. Qed.
Lemma chain_upd : forall E h p e x n, ~ In x (map eid E) -> chain h p E e -> chain (updn h x n) p E e.
Proof. intros. apply (chain_frame E h); auto. intros y Hy. apply updn_neq. intros ->. auto. Qed.
Lemma chain_at : forall A lo x rs B h, chain h None (A ++ (lo, x, rs) :: B) None -> leaf_at h x = Ok (lastid None A, hdid B None, rs).
Proof. intros A lo x rs B h H. apply chain_app in H. destruct H as [_ H]. cbn in H. destruct H as [H _]. unfold leaf_at. now rewrite H. Qed.
(** The pointer back from the first leaf, the pointer forth from the last one. *)
Lemma set_prev_ok : forall B h p e q, chain h p B e -> NoDup (map eid B) ->
  exists h', set_prev h (hdid B None) q = Ok h' /\ chain h' q B e /\ (forall y, hdid B None <> Some y -> h' y = h y).
Proof.
  intros [|[[lo x] rs] B] h p e q H N; cbn in *.
  - exists h. auto.
  - destruct H as [H1 H2]. unfold set_prev, leaf_at. cbn. rewrite H1. cbn. eexists. split; [reflexivity|]. inversion N; subst. split; [split|].
    + apply updn_eq.
    + apply chain_upd; auto.
    + intros y Hy. apply updn_neq. intros ->. auto.
Qed.
Lemma set_next_ok : forall A h p e n, chain h p A e -> NoDup (map eid A) -> A <> [] ->
  exists h', set_next h (lastid None A) n = Ok h' /\ chain h' p A n /\ (forall y, lastid None A <> Some y -> h' y = h y).
Proof.
  intros A h p e n H N Ne. destruct (exists_last Ne) as (A0 & [[lo x] rs] & ->). apply chain_app in H. destruct H as [H1 H2]. cbn in H1, H2. destruct H2 as [H2 _].
  rewrite lastid_app. cbn. unfold leaf_at. rewrite H2. cbn. eexists. split; [reflexivity|].
  rewrite map_app in N. cbn in N. apply NoDup_remove_2 in N. rewrite app_nil_r in N. split.
  - apply chain_app. split; [apply chain_upd; auto|]. cbn. split; auto. apply updn_eq.
  - intros y Hy. apply updn_neq. intros ->. auto.
Qed.

Section Inv.
  Variable cmp : bytes -> bytes -> comparison.
  Hypothesis cmp_opp : forall a b, cmp b a = CompOpp (cmp a b).
  Hypothesis cmp_le_trans : forall a b c, cmp a b <> Gt -> cmp b c <> Gt -> cmp a c <> Gt.
  Notation klt := (klt cmp). Notation kle := (kle cmp). Notation ss := (ss cmp). Notation mlt := (mlt cmp). Notation routes := (routes cmp). Notation routes_at := (routes_at cmp).

  (** * Local form of the place of a key *)
  Definition rlocal (A : list ent) (lo : option bytes) (B : list ent) (k : bytes) : Prop :=
    (A = [] \/ exists a, lo = Some a /\ kle a k) /\ match B with [] => True | e :: _ => exists b, elo e = Some b /\ klt k b end.
  Lemma rlocal_of : forall A lo x rs B k, hdsome (A ++ (lo, x, rs) :: B) -> routes_at A lo B k -> rlocal A lo B k.
  Proof.
    intros A lo x rs B k Hd (R1 & R2 & R3). split.
    - destruct A as [|a A]; auto. right. unfold hdsome in Hd. cbn in Hd. apply Forall_app in Hd. destruct Hd as [_ Hd]. inversion Hd; subst. cbn in H1. destruct lo as [b|]; [eauto|congruence].
    - destruct B as [|e B]; auto. assert (elo e <> None) as Hn. { apply hdsome_at in Hd. inversion Hd; auto. } destruct (elo e) as [b|] eqn:E; [|congruence]. exists b. split; auto. apply R3. apply in_marks_sep. exists e. cbn. auto.
  Qed.
  Lemma rlocal_to : forall A lo x rs B k, ss (A ++ (lo, x, rs) :: B) -> (A = [] -> lo = None \/ exists a, lo = Some a /\ kle a k) -> rlocal A lo B k -> routes_at A lo B k.
  Proof.
    intros A lo x rs B k H Hlo [Lo Po]. repeat split.
    - intros a Ha. destruct Lo as [->|(b & -> & Lb)]; [destruct Ha|].
      unfold BtreeSort.ss in H. rewrite marks_app in H. apply SS_app in H. destruct H as (_ & _ & H). specialize (H (MS a) (MS b) Ha). cbn [BtreeSort.mlt mk] in H.
      apply (kle_trans cmp cmp_le_trans a b k); auto. apply klt_le. apply H. rewrite marks_cons. cbn. auto.
    - destruct Lo as [->|(b & -> & Lb)]; auto. destruct (Hlo eq_refl) as [->|(a & -> & La)]; auto.
    - intros b Hb. destruct B as [|e r]; [destruct Hb|]. destruct Po as (c & Ec & Lc). rewrite marks_cons, Ec in Hb. cbn in Hb. destruct Hb as [Hb|Hb]; [inversion Hb; subst; auto|].
      apply (klt_trans cmp cmp_opp cmp_le_trans k c b); auto. unfold BtreeSort.ss in H. rewrite marks_app in H. apply SS_app in H. destruct H as (_ & H & _). rewrite marks_cons in H. apply SS_app in H. destruct H as (_ & H & _). apply SS_app in H. destruct H as (_ & H & _).
      rewrite marks_cons, Ec in H. cbn in H. inversion H; subst. rewrite Forall_forall in H3. apply (H3 (MS b)). auto.
  Qed.
  Definition hdlo (E : list ent) : option bytes := match E with [] => None | e :: _ => elo e end.
  Lemma hdlo_app : forall A B, A <> [] -> hdlo (A ++ B) = hdlo A.
  Proof. intros [|a A] B H; auto. congruence. Qed.
  (** A change of a stretch of leaves that keeps its lower bound does not move other keys. *)
  Lemma routes_repl : forall A M M' B k z, ss (A ++ M' ++ B) -> hdsome (A ++ M ++ B) -> hdlo (A ++ M' ++ B) = None -> M <> [] -> M' <> [] -> hdlo M = hdlo M' ->
    ~ In z (map eid M) -> routes (A ++ M ++ B) k z -> routes (A ++ M' ++ B) k z.
  Proof.
    intros A M M' B k z Hs Hd Hlo NM NM' EM Nz (A1 & lo & rs & B1 & E & R).
    assert (Hin : In (lo, z, rs) (A ++ M ++ B)) by (rewrite E; apply in_or_app; cbn; auto).
    assert (R' : rlocal A1 lo B1 k) by (rewrite E in Hd; eapply rlocal_of; eauto).
    assert (Ex : (exists C, A = A1 ++ (lo, z, rs) :: C /\ B1 = C ++ M ++ B) \/ (exists C, B = C ++ (lo, z, rs) :: B1 /\ A1 = A ++ M ++ C)).
    { clear - E Nz. revert A E. induction A1 as [|a A1 IH]; intros A E.
      - destruct A as [|a A]; cbn in E. + destruct M as [|m M]; cbn in E. * right. exists []. auto. * inversion E; subst. exfalso. apply Nz. cbn. auto. + inversion E; subst. left. exists A. auto.
      - destruct A as [|a' A]; cbn in E.
        + clear IH. right. revert M Nz a A1 E. induction M as [|m M IHM]; intros Nz a A1 E; cbn in E. * subst. exists (a :: A1). auto. * inversion E; subst. destruct A1 as [|a1 A1]. -- cbn in H1. destruct M as [|m2 M]; cbn in H1. ++ exists []. auto. ++ inversion H1; subst. exfalso. apply Nz. cbn. auto. -- cbn in H1. destruct (IHM (fun W => Nz (or_intror W)) a1 A1 H1) as (C & C1 & C2). exists C. split; auto. cbn in *. now rewrite C2.
        + inversion E; subst. destruct (IH A H1) as [(C & C1 & C2)|(C & C1 & C2)]; [left|right]; exists C; split; auto; cbn; rewrite ?C1, ?C2; reflexivity. }
    destruct Ex as [(C & -> & ->)|(C & -> & ->)].
    - exists A1, lo, rs, (C ++ M' ++ B). split; [now rewrite <- !app_assoc|]. apply (rlocal_to A1 lo z rs); [now rewrite <- !app_assoc in *| |].
      + intros ->. left. rewrite <- app_assoc in Hlo. cbn in Hlo. auto.
      + destruct R' as [L P]. split; auto. destruct C as [|c C]; cbn in *; auto. destruct M as [|m M]; [congruence|]. destruct M' as [|m' M']; [congruence|]. cbn in *. rewrite <- EM. auto.
    - exists (A ++ M' ++ C), lo, rs, B1. split; [now rewrite <- !app_assoc|]. apply (rlocal_to _ lo z rs).
      + now rewrite <- !app_assoc.
      + intros H. apply app_eq_nil in H. destruct H as [_ H]. apply app_eq_nil in H. destruct H as [H _]. exfalso; apply NM'; exact H.
      + destruct R' as [L P]. split; auto. right. destruct L as [L|L]; auto. apply app_eq_nil in L. destruct L as [_ L]. apply app_eq_nil in L. destruct L as [L _]. exfalso; apply NM; exact L.
  Qed.

  (** * The invariant *)
  Record core (h : heap) (fresh : id) (level : nat) (root fst_ lst : id) (t : bt) : Prop := mkCore {
    c_rid : rid t = root; c_lev : 1 <= level; c_dep : dep (level - 1) t; c_hm : hm h (inners t);
    c_chain : chain h None (items None t) None;
    c_nd : NoDup (map fst (inners t) ++ map eid (items None t));
    c_fr : Forall (fun y => y < fresh) (map fst (inners t) ++ map eid (items None t));
    c_ss : ss (items None t);
    c_first : hdid (items None t) None = Some fst_; c_last : lastid None (items None t) = Some lst }.
  Definition its_ok (its : nat -> iter) (E : list ent) : Prop := forall j k x, its j = Some (k, Some x) -> routes E k x.
  Record inv (s : bdb) (done : list id) (E : list ent) : Prop := mkInv {
    i_core : exists t, E = items None t /\ core (b_h s) (b_fresh s) (b_level s) (b_root s) (b_first s) (b_last s) t;
    i_num : b_num s = Z.of_nat (length (recs E));
    i_its : its_ok (b_its s) E;
    i_reorg : forall x k, In (x, k) (b_reorg s) -> ~ In x done -> routes E k x }.

  Lemma items_hdlo : forall t, hdlo (items None t) = None.
  Proof. intros t. destruct (items_hd t None) as (x & rs & r & ->). reflexivity. Qed.
  Lemma nodup_r : forall (a b : list id), NoDup (a ++ b) -> NoDup b.
  Proof. intros a b. induction a; cbn; auto. intros H. inversion H; auto. Qed.
  Lemma nodup_disj : forall (a b : list id) y, NoDup (a ++ b) -> In y a -> In y b -> False.
  Proof. intros a b y. induction a as [|u a IH]; cbn; intros H [] Hb; subst; inversion H; subst; auto. apply H2. apply in_or_app; auto. Qed.

  (** The descent in a state. *)
  Lemma descent_inv : forall h fresh level root f l t key, core h fresh level root f l t ->
    exists p x rs, t = plugs p (TL x rs) /\ (forall acc, trace cmp (level - 1) h root key acc = Ok (map fid p ++ acc)) /\ search cmp (level - 1) h root key = Ok x /\
      pdep 0 p /\ length p = level - 1 /\ items None t = ppre None p ++ (plo None p, x, rs) :: ppost p /\ routes_at (ppre None p) (plo None p) (ppost p) key.
  Proof.
    intros h fresh level root f l t key [C1 C2 C3 C4 C5 C6 C7 C8 C9 C10]. destruct (descent cmp cmp_opp cmp_le_trans _ t h key C3 C4) as (p & x & rs & E & T & S & P & Ln & Lo & Po).
    exists p, x, rs. rewrite C1 in *. do 5 (split; auto). split; [rewrite E, items_plugs; reflexivity|].
    subst t. eapply descent_routes; eauto. apply hdsome_items.
  Qed.

  Variables divp mrgp : list rec -> bool.
  Variable weight : list rec -> N.
  Variables max_branches level_max : nat.
  Hypothesis divp_two : forall rs, divp rs = true -> 2 <= length rs.

  Definition it_key (i : iter) : option bytes := option_map fst i.
  (** What a reorganization keeps. *)
  Definition same (s s' : bdb) (E E' : list ent) : Prop :=
    recs E' = recs E /\ b_reorg s' = b_reorg s /\ b_num s' = b_num s /\ (forall j, it_key (b_its s' j) = it_key (b_its s j)).

  Lemma divide_ok : forall s done E A lo x rs B k, inv s done E -> E = A ++ (lo, x, rs) :: B -> routes_at A lo B k -> 2 <= length rs ->
    divide cmp max_branches level_max s x k = Ub DeepTree \/
    exists s' E', divide cmp max_branches level_max s x k = Ok s' /\ inv s' (x :: done) E' /\ same s s' E E'.
  Proof.
    intros s done E A lo x rs B k [(t & Et & Hc) Hnum Hits Hre] EE R Hlen. pose proof (descent_inv _ _ _ _ _ _ _ k Hc) as (p & x' & rs' & Ept & Htr & _ & Hpd & Hpl & Eit & R').
    assert (Hd : hdsome E) by (rewrite Et; apply hdsome_items).
    rewrite <- Et in Eit. destruct (routes_unique cmp cmp_opp _ _ _ _ _ _ _ _ _ _ _ k Hd EE Eit R R') as (EA & Elo & <- & <- & EB). subst A lo B.
    unfold divide, b_trace. destruct (Nat.leb (b_level s - 1) level_max); [|left; reflexivity]. right. cbn [bind]. rewrite Htr. cbn [bind]. rewrite app_nil_r.
    destruct Hc as [C1 C2 C3 C4 C5 C6 C7 C8 C9 C10]. rewrite <- Et in *. rewrite EE in C5.
    rewrite (chain_at _ _ _ _ _ _ C5). cbn [bind].
    set (m := Nat.div2 (length rs)). assert (Hm : 1 <= m < length rs) by (unfold m; destruct rs as [|r1 [|r2 rs]]; cbn in *; try lia; assert (Nat.div2 (length rs) <= length rs) by (apply Nat.div2_decr; lia); lia).
    assert (Hsk : skipn m rs <> []). { intros H. assert (length (skipn m rs) = 0) by (rewrite H; auto). rewrite skipn_length in H0. lia. }
    destruct (skipn m rs) as [|[mk mv] r2] eqn:Esk; [congruence|].
    set (rs1 := firstn m rs). set (rs2 := (mk, mv) :: r2).
    assert (Ers : rs = rs1 ++ rs2) by (rewrite <- (firstn_skipn m rs) at 1; rewrite Esk; reflexivity).
    assert (Hrs1 : rs1 <> []). { intros H. assert (length rs1 = 0) by (rewrite H; auto). unfold rs1 in H0. rewrite firstn_length in H0. lia. }
    clearbody rs1. clear Hsk Esk. set (y := b_fresh s) in *. set (PA := ppre None p) in *. set (LO := plo None p) in *. set (PB := ppost p) in *.
    set (E' := PA ++ (LO, x, rs1) :: (Some mk, y, rs2) :: PB).
    (* ids *)
    assert (Hids : NoDup (map eid E)) by (eapply nodup_r; exact C6).
    assert (Hy : ~ In y (map fst (inners t) ++ map eid E)). { intros H. rewrite Forall_forall in C7. specialize (C7 _ H). unfold y in C7. lia. }
    assert (HidsE : map eid E = map eid PA ++ x :: map eid PB) by (rewrite EE, map_app; reflexivity).
    assert (HyE : ~ In y (map eid PA ++ x :: map eid PB)) by (rewrite <- HidsE; intros H; apply Hy; apply in_or_app; auto).
    assert (Nx : ~ In x (map eid PA ++ map eid PB)) by (rewrite HidsE in Hids; apply NoDup_remove_2 in Hids; exact Hids).
    assert (NPB : NoDup (map eid PB)). { rewrite HidsE in Hids. apply nodup_r in Hids. inversion Hids; auto. }
    rewrite in_app_iff in Nx, HyE. cbn in HyE.
    (* order *)
    assert (Hss' : ss E').
    { unfold BtreeSort.ss in *. unfold E'. rewrite EE, Ers in C8. rewrite marks_app, !marks_cons in *. cbn [elo ers fst snd sep1] in *. rewrite mrs_app in C8. rewrite <- !app_assoc in C8.
      rewrite !app_assoc in C8. rewrite <- (app_assoc _ (mrs rs2)) in C8. rewrite !app_assoc. rewrite <- (app_assoc _ [MS mk]). cbn [app]. rewrite <- !app_assoc in *. rewrite (app_assoc (sep1 LO)). rewrite app_assoc. rewrite (app_assoc (sep1 LO)) in C8. rewrite (app_assoc (marks PA)) in C8.
      set (P := marks PA ++ sep1 LO ++ mrs rs1) in *.
      assert (Hr1 : exists r1, In r1 rs1) by (destruct rs1 as [|r1 ?]; [congruence|exists r1; cbn; auto]). destruct Hr1 as (r1 & Hr1).
      pose proof C8 as C8'. apply SS_app in C8'. destruct C8' as (S1 & S2 & S3).
      assert (Hmk1 : klt (fst r1) mk). { apply (S3 (MR (fst r1)) (MR mk)). - unfold P. apply in_or_app. right. apply in_or_app. right. apply in_mrs. eauto. - cbn. auto. }
      apply SS_ins; auto.
      - intros u Hu. unfold P in Hu. rewrite app_assoc in Hu. apply in_app_or in Hu. destruct Hu as [Hu|Hu].
        + assert (mlt u (MR (fst r1))) as L. { unfold P in S1. rewrite app_assoc in S1. apply SS_app in S1. destruct S1 as (_ & _ & S1). apply S1; auto. apply in_mrs. eauto. }
          destruct u as [a|a]; cbn in *; [apply (kle_lt_trans cmp cmp_opp cmp_le_trans a (fst r1) mk); auto|apply (klt_trans cmp cmp_opp cmp_le_trans a (fst r1) mk); auto].
        + apply in_mrs in Hu. destruct Hu as (r & Hr & ->). cbn. apply (S3 (MR (fst r)) (MR mk)). * unfold P. apply in_or_app. right. apply in_or_app. right. apply in_mrs. eauto. * cbn. auto.
      - intros v Hv. unfold rs2 in Hv, S2. cbn in Hv, S2. inversion S2; subst. destruct Hv as [<-|Hv]; [cbn; apply kle_refl; auto|].
        rewrite Forall_forall in H2. specialize (H2 v Hv). destruct v as [a|a]; cbn in *; auto. apply klt_le; auto. }
    (* leaves *)
    assert (Hh : exists h1, set_prev (b_h s) (hdid PB None) (Some y) = Ok h1 /\ chain h1 (Some y) PB None /\ (forall z, hdid PB None <> Some z -> h1 z = b_h s z)).
    { apply chain_app in C5. destruct C5 as [_ C5]. cbn in C5. destruct C5 as [_ C5]. eapply set_prev_ok; eauto. }
    destruct Hh as (h1 & Eh1 & Ch1 & Fr1). rewrite Eh1. cbn [bind].
    set (h2 := updn (updn h1 y (Some (Leaf (Some x) (hdid PB None) rs2))) x (Some (Leaf (lastid None PA) (Some y) rs1))).
    assert (HdB : forall z, hdid PB None = Some z -> In z (map eid PB)) by (intros z Hz; destruct PB as [|e PB']; [discriminate|]; inversion Hz; cbn; auto).
    assert (Fr2 : forall z, In z (map fst (inners t)) -> h2 z = b_h s z).
    { intros z Hz. unfold h2. rewrite !updn_neq.
      - apply Fr1. intros H. apply HdB in H. eapply (nodup_disj _ _ z C6); auto. rewrite HidsE. apply in_or_app. cbn. auto.
      - intros ->. apply Hy. apply in_or_app; auto.
      - intros ->. eapply (nodup_disj _ _ x C6); auto. rewrite HidsE. apply in_or_app. cbn. auto. }
    assert (Ch2 : chain h2 None E' None).
    { apply chain_app in C5. destruct C5 as [C5 _]. unfold E'. apply chain_app. split; [|cbn [chain]; split; [|split]].
      - cbn. apply (chain_frame PA (b_h s)); auto. intros z Hz. unfold h2. rewrite !updn_neq; [|intros ->; tauto|intros ->; tauto]. apply Fr1. intros H. apply HdB in H.
        rewrite HidsE in Hids. eapply (nodup_disj _ _ z Hids); auto. cbn. auto.
      - cbn. unfold h2. apply updn_eq.
      - unfold h2. rewrite updn_neq by (intros Q; apply HyE; auto). apply updn_eq.
      - unfold h2. apply chain_upd; [tauto|]. apply chain_upd; [tauto|]. exact Ch1. }
    (* the path upwards *)
    assert (Pin : Permutation (inners t) (pinn p x)) by (rewrite Ept, inners_plugs; reflexivity).
    assert (Hup := div_up_ok cmp cmp_opp cmp_le_trans max_branches p 0 h2 (S y) (b_level s) (b_root s) (TL x rs1) (TL y rs2) mk (map eid E') E').
    cbn [inners app rid] in Hup. destruct Hup as (h3 & fresh' & level' & root' & T & U1 & U2 & U3 & U4 & U5 & U6 & U7 & U8 & U9 & U10); auto.
    - constructor.
    - constructor.
    - lia.
    - rewrite <- C1, Ept. apply rid_plugs. reflexivity.
    - eapply hm_perm; [exact Pin|]. apply (hm_frame (b_h s)); auto.
    - eapply nodup_perm; [apply Permutation_map; exact Pin|]. unfold E'. rewrite map_app. cbn [map eid fst snd]. rewrite HidsE in C6, Hy.
      assert (Permutation (map fst (inners t) ++ map eid PA ++ x :: y :: map eid PB) (y :: map fst (inners t) ++ map eid PA ++ x :: map eid PB)) as P.
      { rewrite app_assoc. rewrite (app_assoc (map fst (inners t)) (map eid PA) (x :: map eid PB)). change (x :: y :: map eid PB) with ([x] ++ y :: map eid PB). rewrite app_assoc. rewrite <- Permutation_middle. rewrite <- app_assoc. reflexivity. }
      eapply Permutation_NoDup; [symmetry; exact P|]. constructor; auto.
    - apply Forall_forall. intros z Hz. rewrite Forall_forall in C7. apply in_app_or in Hz. destruct Hz as [Hz|Hz].
      + eapply Permutation_in in Hz; [|apply Permutation_map; symmetry; exact Pin]. specialize (C7 z). assert (z < y); [apply C7; apply in_or_app; auto|lia].
      + unfold E' in Hz. rewrite map_app in Hz. cbn in Hz. assert (z = y \/ In z (map eid E)) as [->|Hz2]; [rewrite HidsE; rewrite in_app_iff in *; cbn in *; intuition| lia |]. specialize (C7 z). assert (z < y); [apply C7; apply in_or_app; auto|lia].
    - change (updn (updn h1 y (Some (Leaf (Some x) (hdid PB None) ((mk, mv) :: r2)))) x (Some (Leaf (lastid None PA) (Some y) rs1))) with h2. rewrite U1. cbn [bind].
      assert (Fr3 : forall z, In z (map eid E') -> h3 z = h2 z).
      { intros z Hz. apply U10. - rewrite Forall_forall in U8. unfold E' in Hz. rewrite map_app in Hz. cbn in Hz. assert (z = y \/ In z (map eid E)) as [->|Hz2]; [rewrite HidsE; rewrite in_app_iff in *; cbn in *; intuition| lia |]. rewrite Forall_forall in C7. specialize (C7 z). assert (z < y); [apply C7; apply in_or_app; auto|lia].
        - intros H. eapply Permutation_in in H; [|apply Permutation_map; symmetry; exact Pin]. unfold E' in Hz. rewrite map_app in Hz. cbn in Hz. assert (z = y \/ In z (map eid E)) as [->|Hz2]; [rewrite HidsE; rewrite in_app_iff in *; cbn in *; intuition| |]. + apply Hy. apply in_or_app; auto. + eapply (nodup_disj _ _ z C6); eauto. }
      assert (Hrecs : recs E' = recs E). { unfold E'. rewrite EE, Ers. rewrite !recs_app. cbn. now rewrite <- app_assoc. }
      assert (Hother : forall z k0, z <> x -> routes E k0 z -> routes E' k0 z).
      { intros z k0 Nz Hr. unfold E'. change ((LO, x, rs1) :: (Some mk, y, rs2) :: PB) with ([(LO, x, rs1); (Some mk, y, rs2)] ++ PB).
        apply (routes_repl PA [(LO, x, rs)]); auto; try discriminate.
        - pose proof Hd as Hd2. rewrite EE in Hd2. exact Hd2.
        - change (hdlo E' = None). rewrite <- U3. apply items_hdlo.
        - cbn. intros [?|[]]. congruence.
        - rewrite EE in Hr. exact Hr. }
      assert (Hat : forall k0, routes E k0 x -> if ltb cmp k0 mk then routes E' k0 x else routes E' k0 y).
      { intros k0 (A1 & lo1 & rs1' & B1 & EE1 & R1).
        assert (Q : A1 = PA /\ lo1 = LO /\ B1 = PB).
        { rewrite EE in EE1. destruct (split_cases _ _ _ _ _ _ EE1) as [(Q1 & Q2 & Q3)|[(c & Q1 & Q2)|(c & Q1 & Q2)]].
          - inversion Q2; subst; auto.
          - exfalso. apply Nx. right. rewrite Q2, map_app. cbn. apply in_or_app. cbn. auto.
          - exfalso. apply Nx. left. rewrite Q1, map_app. cbn. apply in_or_app. cbn. auto. }
        destruct Q as (-> & -> & ->). assert (RL : rlocal PA LO PB k0) by (eapply rlocal_of; [|exact R1]; rewrite <- EE; exact Hd).
        destruct RL as [L1 L2]. assert (HloP : PA = [] -> LO = None). { intros H. assert (hdlo E' = None) by (rewrite <- U3; apply items_hdlo). unfold E' in H0. rewrite H in H0. exact H0. }
        destruct (ltb cmp k0 mk) eqn:Elt.
        - exists PA, LO, rs1, ((Some mk, y, rs2) :: PB). split; auto. apply (rlocal_to PA LO x rs1); auto. split; auto. cbn. exists mk. split; auto. now apply ltb_lt.
        - exists (PA ++ [(LO, x, rs1)]), (Some mk), rs2, PB. split; [now rewrite <- app_assoc|]. apply (rlocal_to _ _ y rs2); auto.
          + rewrite <- app_assoc. exact Hss'.
          + intros H. apply app_eq_nil in H. destruct H. discriminate.
          + split; auto. right. exists mk. split; auto. now apply (ltb_ge cmp cmp_opp). }
      eexists. exists E'. split; [reflexivity|]. split; [|split; [exact Hrecs|repeat split]].
      + constructor; cbn [b_h b_fresh b_level b_root b_first b_last b_num b_its b_reorg].
        * exists T. split; [now rewrite U3|]. constructor; auto; rewrite ?U3; auto.
          -- apply (chain_frame E' h2); auto.
          -- rewrite <- C9. unfold E'. rewrite EE, !hdid_app. reflexivity.
          -- unfold E'. rewrite EE in C10. rewrite lastid_app, lastid_cons in C10. cbn [eid fst snd] in C10. rewrite lastid_app, !lastid_cons. cbn [eid fst snd].
             destruct PB as [|e PB']. ++ cbn in *. inversion C10; subst. now rewrite Nat.eqb_refl.
             ++ rewrite lastid_cons in *. rewrite C10. destruct (Nat.eqb (b_last s) x) eqn:Eb; auto. apply Nat.eqb_eq in Eb. exfalso. apply lastid_in in C10. apply Nx. right. rewrite <- Eb. cbn. destruct C10 as [C10|C10]; auto. inversion C10; auto.
        * now rewrite Hrecs.
        * intros j k0 z Hj. unfold div_iter in Hj. destruct (b_its s j) as [[k1 [z1|]]|] eqn:Ej; [|discriminate|discriminate].
          pose proof (Hits _ _ _ Ej) as Hr. destruct (Nat.eqb z1 x) eqn:Ez.
          -- apply Nat.eqb_eq in Ez. subst z1. specialize (Hat _ Hr). destruct (ltb cmp k1 mk) eqn:El; cbn in Hj; inversion Hj; subst; auto.
          -- apply Nat.eqb_neq in Ez. cbn in Hj. inversion Hj; subst. auto.
        * intros z k0 Hz Nz. apply Hother. -- intros ->. apply Nz. cbn. auto. -- apply Hre; auto. intros H. apply Nz. cbn. auto.
      + intros j. cbn. unfold div_iter. destruct (b_its s j) as [[k1 [z1|]]|]; auto. destruct (Nat.eqb z1 x && negb (ltb cmp k1 mk)); auto.
  Qed.
End Inv.
