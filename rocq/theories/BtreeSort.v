(** Order of the separators and records of a tree; where a key belongs; the descent from the root. *)
From Coq Require Import List NArith ZArith Bool Lia Arith Permutation Sorting.Sorted.
Import ListNotations.
From Verif Require Import Bytes DbmModel BtreeModel BtreeTree.

Lemma SS_app : forall {A} (R : A -> A -> Prop) a b,
  StronglySorted R (a ++ b) <-> StronglySorted R a /\ StronglySorted R b /\ (forall x y, In x a -> In y b -> R x y).
Proof.
  intros A R a b. induction a as [|x a IH]; cbn.
  - split; [intros H; repeat split; auto; [constructor | intros ? ? []] | tauto].
  - split.
    + intros H. inversion H; subst. apply IH in H2. destruct H2 as (H1 & H2 & H4). apply Forall_app in H3. destruct H3 as [H5 H6]. repeat split; auto. * constructor; auto.
      * intros u v [<-|Hu] Hv; auto. rewrite Forall_forall in H6. auto.
    + intros (H1 & H2 & H3). inversion H1; subst. constructor. * apply IH. auto. * apply Forall_app. split; auto. apply Forall_forall. auto.
Qed.
Lemma SS_del : forall {A} (R : A -> A -> Prop) a b c, StronglySorted R (a ++ b ++ c) -> StronglySorted R (a ++ c).
Proof.
  intros A R a b c H. apply SS_app in H. destruct H as (H1 & H2 & H3). apply SS_app in H2. destruct H2 as (H4 & H5 & H6). apply SS_app. repeat split; auto.
  intros x y Hx Hy. apply H3; auto. apply in_or_app. auto.
Qed.
Lemma SS_ins : forall {A} (R : A -> A -> Prop) a x c, StronglySorted R (a ++ c) -> (forall u, In u a -> R u x) -> (forall v, In v c -> R x v) -> StronglySorted R (a ++ x :: c).
Proof.
  intros A R a x c H H1 H2. apply SS_app in H. destruct H as (H3 & H4 & H5). apply SS_app. repeat split; auto.
  - constructor; auto. apply Forall_forall. auto.
  - intros u v Hu [<-|Hv]; auto.
Qed.
Lemma split_cases : forall {A} (a b a' b' : list A) e e', a ++ e :: b = a' ++ e' :: b' ->
  (a = a' /\ e = e' /\ b = b') \/ (exists c, a' = a ++ e :: c /\ b = c ++ e' :: b') \/ (exists c, a = a' ++ e' :: c /\ b' = c ++ e :: b).
Proof.
  intros A a. induction a as [|x a IH]; intros b a' b' e e' H; destruct a' as [|x' a']; cbn in *; inversion H; subst.
  - auto.
  - right; left. exists a'. auto.
  - right; right. exists a. auto.
  - destruct (IH _ _ _ _ _ H2) as [(-> & -> & ->)|[(c & -> & ->)|(c & -> & ->)]]; [left | right; left; exists c | right; right; exists c]; auto.
Qed.

Section Sort.
  Variable cmp : bytes -> bytes -> comparison.
  Hypothesis cmp_opp : forall a b, cmp b a = CompOpp (cmp a b).
  Hypothesis cmp_le_trans : forall a b c, cmp a b <> Gt -> cmp b c <> Gt -> cmp a c <> Gt.
  Notation klt := (klt cmp). Notation kle := (kle cmp).

  Inductive mark := MS (k : bytes) | MR (k : bytes).
  Definition mk (m : mark) : bytes := match m with MS k => k | MR k => k end.
  Definition mlt (m n : mark) : Prop :=
    match n with MS b => klt (mk m) b | MR b => match m with MS a => kle a b | MR a => klt a b end end.
  Definition sep1 (s : option bytes) : list mark := match s with Some k => [MS k] | None => [] end.
  Definition mrs (rs : list rec) : list mark := map (fun r => MR (fst r)) rs.
  Definition marks1 (e : ent) : list mark := sep1 (elo e) ++ mrs (ers e).
  Definition marks (E : list ent) : list mark := flat_map marks1 E.
  Definition ss (E : list ent) : Prop := StronglySorted mlt (marks E).
  Definition recs (E : list ent) : list rec := flat_map ers E.
  Definition hdsome (E : list ent) : Prop := Forall (fun e => elo e <> None) (tl E).

  Lemma marks_app : forall a b, marks (a ++ b) = marks a ++ marks b.
  Proof. intros. apply flat_map_app. Qed.
  Lemma recs_app : forall a b, recs (a ++ b) = recs a ++ recs b.
  Proof. intros. apply flat_map_app. Qed.
  Lemma mrs_app : forall a b, mrs (a ++ b) = mrs a ++ mrs b.
  Proof. intros. apply map_app. Qed.
  Lemma marks_cons : forall e b, marks (e :: b) = sep1 (elo e) ++ mrs (ers e) ++ marks b.
  Proof. intros. cbn. unfold marks1. now rewrite <- app_assoc. Qed.
  Lemma in_marks_sep : forall E k, In (MS k) (marks E) <-> exists e, In e E /\ elo e = Some k.
  Proof.
    intros E k. unfold marks. rewrite in_flat_map. split.
    - intros (e & H & H2). exists e. split; auto. unfold marks1 in H2. apply in_app_or in H2. destruct H2 as [H2|H2].
      + destruct (elo e); cbn in H2; [|tauto]. destruct H2 as [H2|[]]. now inversion H2.
      + apply in_map_iff in H2. destruct H2 as (? & ? & ?). discriminate.
    - intros (e & H & H2). exists e. split; auto. unfold marks1. rewrite H2. cbn. auto.
  Qed.
  Lemma in_marks_rec : forall E k, In (MR k) (marks E) <-> exists v, In (k, v) (recs E).
  Proof.
    intros E k. unfold marks, recs. split.
    - intros H. apply in_flat_map in H. destruct H as (e & H & H2). unfold marks1 in H2. apply in_app_or in H2. destruct H2 as [H2|H2].
      + destruct (elo e); cbn in H2; [|tauto]. destruct H2 as [H2|[]]. discriminate.
      + apply in_map_iff in H2. destruct H2 as ([k1 v] & H3 & H4). inversion H3; subst. exists v. apply in_flat_map. exists e. auto.
    - intros (v & H). apply in_flat_map in H. destruct H as (e & H & H2). apply in_flat_map. exists e. split; auto. unfold marks1. apply in_or_app. right. unfold mrs. apply in_map_iff. exists (k, v). auto.
  Qed.
  Lemma in_mrs : forall rs m, In m (mrs rs) <-> exists r, In r rs /\ m = MR (fst r).
  Proof. intros. unfold mrs. rewrite in_map_iff. split; intros (r & H & H2); exists r; auto. Qed.

  (** Where a key belongs. *)
  Definition routes_at (A : list ent) (lo : option bytes) (B : list ent) (k : bytes) : Prop :=
    (forall a, In (MS a) (marks A) -> kle a k) /\ match lo with Some a => kle a k | None => True end /\ (forall b, In (MS b) (marks B) -> klt k b).
  Definition routes (E : list ent) (k : bytes) (x : id) : Prop := exists A lo rs B, E = A ++ (lo, x, rs) :: B /\ routes_at A lo B k.
  Lemma hdsome_at : forall A e B, hdsome (A ++ e :: B) -> Forall (fun e => elo e <> None) B.
  Proof. intros A e B H. unfold hdsome in H. destruct A as [|a A]; cbn in H; auto. apply Forall_app in H. destruct H as [_ H]. inversion H; auto. Qed.
  Lemma routes_unique : forall E A lo x rs B A' lo' x' rs' B' k, hdsome E ->
    E = A ++ (lo, x, rs) :: B -> E = A' ++ (lo', x', rs') :: B' -> routes_at A lo B k -> routes_at A' lo' B' k ->
    A = A' /\ lo = lo' /\ x = x' /\ rs = rs' /\ B = B'.
  Proof.
    assert (W : forall E A lo x rs B A' lo' x' rs' B' k c, hdsome E -> E = A ++ (lo, x, rs) :: B -> E = A' ++ (lo', x', rs') :: B' -> routes_at A lo B k -> routes_at A' lo' B' k -> B = c ++ (lo', x', rs') :: B' -> False).
    { intros E A lo x rs B A' lo' x' rs' B' k c H0 E1 E2 (R1 & R2 & R3) (S1 & S2 & S3) Hc.
      assert (Hs : Forall (fun e => elo e <> None) B) by (rewrite E1 in H0; eapply hdsome_at; eauto).
      rewrite Forall_forall in Hs. specialize (Hs (lo', x', rs')). destruct lo' as [b|].
      - assert (klt k b) as L. { apply R3. apply in_marks_sep. exists (Some b, x', rs'). split; auto. rewrite Hc. apply in_or_app. cbn. auto. }
        apply (klt_not cmp cmp_opp) in L. auto.
      - apply Hs; auto. rewrite Hc. apply in_or_app. cbn. auto. }
    intros E A lo x rs B A' lo' x' rs' B' k H0 E1 E2 R1 R2. pose proof E1 as E3. rewrite E2 in E3. symmetry in E3.
    destruct (split_cases _ _ _ _ _ _ E3) as [(-> & Q & ->)|[(c & -> & Hc)|(c & -> & Hc)]].
    - inversion Q; auto.
    - exfalso. eapply (W E A lo x rs B _ lo' x' rs' B' k c); eauto.
    - exfalso. eapply (W E A' lo' x' rs' B' _ lo x rs B k c); eauto.
  Qed.
  (** The leaf of a record is where its key belongs. *)
  Lemma routes_rec : forall A lo x rs B k v, ss (A ++ (lo, x, rs) :: B) -> In (k, v) rs -> routes_at A lo B k.
  Proof.
    intros A lo x rs B k v H Hr. unfold ss in H. rewrite marks_app, marks_cons in H. cbn in H. apply SS_app in H. destruct H as (_ & H & H2). apply SS_app in H. destruct H as (_ & H & H3). apply SS_app in H. destruct H as (_ & _ & H4).
    assert (Hm : In (MR k) (mrs rs)) by (apply in_mrs; exists (k, v); auto).
    repeat split.
    - intros a Ha. specialize (H2 (MS a) (MR k) Ha). cbn in H2. apply H2. apply in_or_app. right. apply in_or_app. auto.
    - destruct lo as [a|]; auto. specialize (H3 (MS a) (MR k)). cbn in H3. apply H3; auto. apply in_or_app; auto.
    - intros b Hb. specialize (H4 (MR k) (MS b)). cbn in H4. auto.
  Qed.
  (** All records before a place are smaller, all after it greater. *)
  Lemma routes_before : forall A lo x rs B k r, ss (A ++ (lo, x, rs) :: B) -> hdsome (A ++ (lo, x, rs) :: B) -> routes_at A lo B k -> In r (recs A) -> klt (fst r) k.
  Proof.
    intros A lo x rs B k [k1 v] H Hd (R1 & R2 & R3) Hr. destruct A as [|a0 A]; [destruct Hr|].
    assert (Hs : elo (lo, x, rs) <> None). { unfold hdsome in Hd. cbn in Hd. apply Forall_app in Hd. destruct Hd as [_ Hd]. inversion Hd; auto. }
    cbn in Hs. destruct lo as [a|]; [|congruence]. unfold ss in H. rewrite marks_app in H. apply SS_app in H. destruct H as (_ & _ & H).
    specialize (H (MR k1) (MS a)). cbn [mlt mk] in H. cbn [fst]. apply (klt_le_trans cmp cmp_opp cmp_le_trans k1 a k); auto. apply H. + apply in_marks_rec. eauto. + rewrite marks_cons. cbn. auto.
  Qed.
  Lemma routes_after : forall A lo x rs B k r, ss (A ++ (lo, x, rs) :: B) -> hdsome (A ++ (lo, x, rs) :: B) -> routes_at A lo B k -> In r (recs B) -> klt k (fst r).
  Proof.
    intros A lo x rs B k [k1 v] H Hd (R1 & R2 & R3) Hr. apply in_flat_map in Hr. destruct Hr as (e & He & Hr).
    assert (Hs : Forall (fun e => elo e <> None) B) by (eapply hdsome_at; eauto). rewrite Forall_forall in Hs. specialize (Hs e He).
    destruct (elo e) as [b|] eqn:Eb; [|congruence]. cbn [fst]. apply (klt_le_trans cmp cmp_opp cmp_le_trans k b k1).
    - apply R3. apply in_marks_sep. eauto.
    - unfold ss in H. rewrite marks_app in H. apply SS_app in H. destruct H as (_ & H & _). rewrite marks_cons in H. apply SS_app in H. destruct H as (_ & H & _). apply SS_app in H. destruct H as (_ & H & _).
      apply in_split in He. destruct He as (B1 & B2 & ->). rewrite marks_app in H. apply SS_app in H. destruct H as (_ & H & _). rewrite marks_cons, Eb in H. cbn in H. inversion H; subst. rewrite Forall_forall in H3.
      specialize (H3 (MR k1)). cbn in H3. apply H3. apply in_or_app. left. apply in_mrs. exists (k1, v). auto.
  Qed.
  Lemma ss_recs : forall E, ss E -> StronglySorted (fun a b : rec => klt (fst a) (fst b)) (recs E).
  Proof.
    induction E as [|e E IH]; intros H; [constructor|]. cbn. unfold ss in H. rewrite marks_cons in H. apply SS_app in H. destruct H as (_ & H & _). apply SS_app in H. destruct H as (H1 & H2 & H3).
    apply SS_app. repeat split.
    - clear - H1. induction (ers e) as [|r rs IH]; [constructor|]. cbn in H1. inversion H1; subst. constructor; auto. apply Forall_forall. intros r2 Hr. rewrite Forall_forall in H3. specialize (H3 (MR (fst r2))). cbn in H3. apply H3. apply in_mrs. eauto.
    - apply IH. exact H2.
    - intros [k1 v1] [k2 v2] Ha Hb. specialize (H3 (MR k1) (MR k2)). cbn in *. apply H3. + apply in_mrs. exists (k1, v1). auto. + apply in_marks_rec. eauto.
  Qed.
  Lemma hdsome_items : forall s t, hdsome (items s t).
  Proof. intros. apply items_some. Qed.

  (** * The descent *)
  Lemma split_lnk : forall p l, split_at p (lnk l) = (lnk (fst (split_at p l)), lnk (snd (split_at p l))).
  Proof. unfold lnk. intros p l. induction l as [|[k t] l IH]; cbn; auto. destruct (p k); cbn; auto. rewrite IH. destruct (split_at p l); auto. Qed.
  Lemma plugs_snoc : forall p f t, plugs (p ++ [f]) t = plug f (plugs p t).
  Proof. induction p as [|g p IH]; intros; cbn; auto. Qed.
  Lemma plo_snoc : forall p f s, plo s (p ++ [f]) = plo (flo s f) p.
  Proof. induction p as [|g p IH]; intros; cbn; auto. now rewrite IH. Qed.
  Lemma ppre_snoc : forall p f s, ppre s (p ++ [f]) = fpre s f ++ ppre (flo s f) p.
  Proof. induction p as [|g p IH]; intros; cbn. - now rewrite app_nil_r. - rewrite IH, plo_snoc. now rewrite app_assoc. Qed.
  Lemma ppost_snoc : forall p f, ppost (p ++ [f]) = ppost p ++ fpost f.
  Proof. induction p as [|g p IH]; intros; cbn. - now rewrite app_nil_r. - rewrite IH. now rewrite app_assoc. Qed.
  Lemma pdep_snoc : forall p f n, pdep n p -> fdep (n + length p) f -> pdep n (p ++ [f]).
  Proof. induction p as [|g p IH]; intros f n H H2; cbn in *. - rewrite Nat.add_0_r in H2. auto. - split; [tauto|]. apply IH; [tauto|]. now rewrite Nat.add_succ_comm. Qed.
  Lemma descent : forall n t h key, dep n t -> hm h (inners t) ->
    exists p x rs, t = plugs p (TL x rs) /\ (forall acc, trace cmp n h (rid t) key acc = Ok (map fid p ++ acc)) /\ search cmp n h (rid t) key = Ok x /\
      pdep 0 p /\ length p = n /\
      (forall s, (plo s p = s /\ ppre s p = []) \/ exists a, plo s p = Some a /\ kle a key) /\
      match ppost p with [] => True | e :: _ => exists b, elo e = Some b /\ klt key b end.
  Proof.
    induction n as [|n IH]; intros t h key D M; inversion D as [|? ? ? ? D0 Dl]; subst.
    - exists [], x, rs. cbn. repeat split; auto.
    - cbn [inners] in M. apply hm_cons in M. destruct M as [Mx M]. apply hm_app in M. destruct M as [M0 Ml]. cbn [fst snd] in Mx.
      assert (F : exists f c, TI x t0 l = plug f c /\ pick cmp (rid t0) (lnk l) key = rid c /\ dep n c /\ hm h (inners c) /\ fdep n f /\
                   (forall s, (flo s f = s /\ fpre s f = []) \/ exists a, flo s f = Some a /\ kle a key) /\
                   match fpost f with [] => True | e :: _ => exists b, elo e = Some b /\ klt key b end).
      { unfold pick, upper. rewrite split_lnk. cbn [fst].
        pose proof (split_at_app (fun x => negb (ltb cmp key x)) l) as SA. pose proof (split_at_left (fun x => negb (ltb cmp key x)) l) as SL. pose proof (split_at_right (fun x => negb (ltb cmp key x)) l) as SR.
        destruct (split_at (fun x => negb (ltb cmp key x)) l) as [l1 l2]. cbn [fst snd] in *.
        assert (P2 : match fitems l2 with [] => True | e :: _ => exists b, elo e = Some b /\ klt key b end).
        { destruct l2 as [|[k2 t2] l2]; cbn; auto. destruct (items_hd t2 (Some k2)) as (y & rs & r & E). rewrite E. cbn. exists k2. split; auto. apply (ltb_lt cmp). specialize (SR _ _ _ eq_refl). now destruct (ltb cmp key k2). }
        destruct (rev l1) as [|[k c] r] eqn:E.
        - assert (l1 = []) by (rewrite <- (rev_involutive l1), E; auto). subst l1. cbn in SA. subst l2. exists (FH x l), t0. cbn. repeat split; auto.
        - assert (l1 = rev r ++ [(k, c)]) by (rewrite <- (rev_involutive l1), E; auto). subst l1.
          exists (FL x t0 (rev r) k l2), c. cbn [plug flo fpre fpost frest fdep]. rewrite <- SA in *. rewrite <- app_assoc. cbn [app].
          fold (finners (l)) in *. apply Forall_app in Dl. destruct Dl as [D1 D2]. apply Forall_app in D1. destruct D1 as [D1 D3]. inversion D3 as [|? ? D4 D5]; subst. cbn in D4.
          apply Forall_app in SL. destruct SL as [_ SL]. inversion SL as [|? ? SL1 SL2]; subst. cbn in SL1.
          repeat split; auto.
          + unfold lnk. rewrite map_app, map_app. cbn. now rewrite last_last.
          + fold (finners ((rev r ++ [(k, c)]) ++ l2)) in Ml. rewrite !finners_app in Ml. cbn in Ml. rewrite app_nil_r in Ml. apply hm_app in Ml. destruct Ml as [Ml _]. apply hm_app in Ml. tauto.
          + apply Forall_app; auto.
          + intros s. right. exists k. split; auto. apply (ltb_ge cmp cmp_opp). now destruct (ltb cmp key k). }
      destruct F as (f & c & Ef & Ep & Dc & Mc & Fd & Fl & Fp). destruct (IH c h key Dc Mc) as (p & y & rs & E & Tr & Se & Pd & Pl & Lo & Po).
      exists (p ++ [f]), y, rs. rewrite plugs_snoc, <- E. split; [auto|].
      assert (In1 : inner_at h x = Ok (rid t0, lnk l)) by (unfold inner_at; now rewrite Mx).
      split; [|split; [|split; [|split; [|split]]]].
      + intros acc. cbn [rid trace]. rewrite In1. cbn [bind]. rewrite Ep, Tr, map_app, <- app_assoc. cbn. f_equal. f_equal. f_equal. destruct f; cbn in *; congruence.
      + cbn [rid search]. rewrite In1. cbn [bind]. now rewrite Ep.
      + apply pdep_snoc; auto. cbn. now rewrite Pl.
      + rewrite app_length. cbn. lia.
      + intros s. rewrite plo_snoc, ppre_snoc. destruct (Lo (flo s f)) as [[L1 L2]|L]; auto. destruct (Fl s) as [[F1 F2]|(a & F1 & F2)].
        * left. rewrite L1, L2, F1, F2. auto.
        * right. exists a. rewrite L1. auto.
      + rewrite ppost_snoc. destruct (ppost p); auto.
  Qed.
  (** The descent ends where the key belongs. *)
  Lemma descent_routes : forall p x rs key, ss (items None (plugs p (TL x rs))) -> hdsome (items None (plugs p (TL x rs))) ->
      (forall s, (plo s p = s /\ ppre s p = []) \/ exists a, plo s p = Some a /\ kle a key) ->
      match ppost p with [] => True | e :: _ => exists b, elo e = Some b /\ klt key b end ->
      routes_at (ppre None p) (plo None p) (ppost p) key.
  Proof.
    intros p x rs key H Hd Lo Po. rewrite items_plugs in *. cbn [items app] in *. repeat split.
    - intros a Ha. destruct (Lo None) as [[_ L]|(b & L & Lb)]. + rewrite L in Ha. destruct Ha.
      + unfold ss in H. rewrite marks_app in H. apply SS_app in H. destruct H as (_ & _ & H). specialize (H (MS a) (MS b) Ha). cbn [mlt mk] in H.
        apply (kle_trans cmp cmp_le_trans a b key); auto. apply klt_le. apply H. rewrite marks_cons, L. cbn. auto.
    - destruct (Lo None) as [[-> _]|(b & -> & Lb)]; auto.
    - intros b Hb. destruct (ppost p) as [|e r]; [destruct Hb|]. destruct Po as (c & Ec & Lc). rewrite marks_cons, Ec in Hb. cbn in Hb. destruct Hb as [Hb|Hb]; [inversion Hb; subst; auto|].
      apply (klt_trans cmp cmp_opp cmp_le_trans key c b); auto. unfold ss in H. rewrite marks_app in H. apply SS_app in H. destruct H as (_ & H & _). rewrite marks_cons in H. apply SS_app in H. destruct H as (_ & H & _). apply SS_app in H. destruct H as (_ & H & _).
      rewrite marks_cons, Ec in H. cbn in H. inversion H; subst. rewrite Forall_forall in H3. apply (H3 (MS b)). auto.
  Qed.
End Sort.
