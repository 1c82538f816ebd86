(** The programs of TreeRunModel.v on a plain heap of nodes do what the functions of BtreeModel.v do. *)
From Coq Require Import List NArith ZArith Bool Lia Arith.
Import ListNotations.
From Verif Require Import Bytes DbmModel StatusModel OmapHist BtreeModel BtreeHist TreePageModel TreeReopen TreeRunModel.
Open Scope nat_scope.

(** A program on a heap; an operation on a node that is not there, or of the other kind, is undefined. *)
Fixpoint hi {A} (p : prog A) (h : heap) (c : id) : res (A * heap * id) :=
  match p with
  | Ret a => Ok (a, h, c)
  | Bad e => Ub e
  | Load x k => match h x with Some n => hi (k n) h c | None => Ub BadAccess end
  | Write x n k => match h x with Some m => if Bool.eqb (is_inn m) (is_inn n) then hi k (updn h x (Some n)) c else Ub BadAccess | None => Ub BadAccess end
  | New n k => match h c with None => hi (k c) (updn h c (Some n)) (S c) | Some _ => Ub BadAccess end
  | Drop x k => match h x with Some _ => hi k (updn h x None) c | None => Ub BadAccess end
  | Size k => hi (k c) h c
  end.
Lemma hi_pb : forall A B (p : prog A) (f : A -> prog B) h c, hi (pb p f) h c = bind (hi p h c) (fun '(a, h1, c1) => hi (f a) h1 c1).
Proof.
  intros A B p f. induction p as [a|e|x k IH|x n k IH|n k IH|x k IH|k IH]; intros h c; cbn [pb hi]; auto.
  - destruct (h x); auto.
  - destruct (h x) as [m|]; auto. destruct (Bool.eqb _ _); auto.
  - destruct (h c); auto.
  - destruct (h x); auto.
Qed.
Definition clean (h : heap) (c : id) : Prop := forall y, c <= y -> h y = None.
Lemma upd_same : forall h x n, updn h x n x = n. Proof. intros. unfold updn. now rewrite Nat.eqb_refl. Qed.
Lemma upd_other : forall h x n y, y <> x -> updn h x n y = h y. Proof. intros h x n y N. unfold updn. destruct (Nat.eqb_spec y x); [contradiction|auto]. Qed.
Lemma hi_clean : forall A (p : prog A) h c a h' c', clean h c -> hi p h c = Ok (a, h', c') -> clean h' c'.
Proof.
  intros A p. induction p as [a|e|x k IH|x n k IH|n k IH|x k IH|k IH]; intros h c a0 h' c' F E; cbn [hi] in E.
  - injection E as <- <- <-. exact F.
  - discriminate.
  - destruct (h x); [eauto|discriminate].
  - destruct (h x) as [m|] eqn:Ex; [|discriminate]. destruct (Bool.eqb _ _); [|discriminate]. eapply IH; [|exact E]. intros y Hy. rewrite upd_other; auto. intros ->. rewrite F in Ex; [discriminate|auto].
  - destruct (h c) eqn:Ex; [discriminate|]. eapply IH; [|exact E]. intros y Hy. rewrite upd_other by lia. apply F. lia.
  - destruct (h x) as [m|] eqn:Ex; [|discriminate]. eapply IH; [|exact E]. intros y Hy. unfold updn. destruct (Nat.eqb y x); auto.
  - eauto.
Qed.
Definition kindh (h : heap) (x : id) (k : bool) : Prop := exists n, h x = Some n /\ is_inn n = k.
Lemma kindh_upd : forall h x k y n, kindh h x k -> kindh h y (is_inn n) -> kindh (updn h y (Some n)) x k.
Proof.
  intros h x k y n (m & A & B) (m2 & C & D). destruct (Nat.eq_dec x y) as [->|N].
  - exists n. rewrite upd_same. split; auto. congruence.
  - exists m. rewrite upd_other by auto. auto.
Qed.
Lemma kindh_new : forall h x k c n, kindh h x k -> h c = None -> kindh (updn h c (Some n)) x k.
Proof. intros h x k c n (m & A & B) H. exists m. rewrite upd_other; auto. intros ->. congruence. Qed.
Lemma hi_write : forall A x n (k : prog A) h c, kindh h x (is_inn n) -> hi (Write x n k) h c = hi k (updn h x (Some n)) c.
Proof. intros A x n k h c (m & E1 & E2). cbn [hi]. rewrite E1, E2, Bool.eqb_reflx. reflexivity. Qed.
Lemma hi_drop : forall A x (k : prog A) h c b, kindh h x b -> hi (Drop x k) h c = hi k (updn h x None) c.
Proof. intros A x k h c b (m & E1 & E2). cbn [hi]. now rewrite E1. Qed.
Lemma hi_new : forall A n (k : id -> prog A) h c, h c = None -> hi (New n k) h c = hi (k c) (updn h c (Some n)) (S c).
Proof. intros A n k h c E. cbn [hi]. now rewrite E. Qed.
Lemma hi_leaf : forall x h c, hi (p_leaf x) h c = a <~ leaf_at h x ;; Ok (a, h, c).
Proof. intros x h c. unfold p_leaf, leaf_at. cbn [hi]. destruct (h x) as [[p q rs|e ls]|]; reflexivity. Qed.
Lemma hi_inner : forall x h c, hi (p_inner x) h c = a <~ inner_at h x ;; Ok (a, h, c).
Proof. intros x h c. unfold p_inner, inner_at. cbn [hi]. destruct (h x) as [[p q rs|e ls]|]; reflexivity. Qed.
Lemma leaf_kind : forall h x a, leaf_at h x = Ok a -> kindh h x false.
Proof. unfold leaf_at, kindh. intros h x a E. destruct (h x) as [[p q rs|e ls]|]; try discriminate. eexists. split; reflexivity. Qed.
Lemma inner_kind : forall h x a, inner_at h x = Ok a -> kindh h x true.
Proof. unfold inner_at, kindh. intros h x a E. destruct (h x) as [[p q rs|e ls]|]; try discriminate. eexists. split; reflexivity. Qed.
Lemma hi_set_prev : forall ox p h c, hi (p_set_prev ox p) h c = h' <~ set_prev h ox p ;; Ok (tt, h', c).
Proof.
  intros [x|] p h c; [|reflexivity]. unfold p_set_prev, set_prev. rewrite hi_pb, hi_leaf. destruct (leaf_at h x) as [[[p0 n0] rs]|e] eqn:E; cbn [bind]; [|reflexivity].
  rewrite hi_write; [reflexivity|]. eapply leaf_kind; eauto.
Qed.
Lemma hi_set_next : forall ox p h c, hi (p_set_next ox p) h c = h' <~ set_next h ox p ;; Ok (tt, h', c).
Proof.
  intros [x|] p h c; [|reflexivity]. unfold p_set_next, set_next. rewrite hi_pb, hi_leaf. destruct (leaf_at h x) as [[[p0 n0] rs]|e] eqn:E; cbn [bind]; [|reflexivity].
  rewrite hi_write; [reflexivity|]. eapply leaf_kind; eauto.
Qed.
Lemma set_prev_kind : forall ox p h h' x k, set_prev h ox p = Ok h' -> kindh h x k -> kindh h' x k.
Proof. intros [y|] p h h' x k E K; cbn in E; [|now injection E as <-]. destruct (leaf_at h y) as [[[p0 n0] rs]|e] eqn:L; cbn in E; [|discriminate]. injection E as <-. apply kindh_upd; auto. eapply leaf_kind; eauto. Qed.
Lemma set_next_kind : forall ox p h h' x k, set_next h ox p = Ok h' -> kindh h x k -> kindh h' x k.
Proof. intros [y|] p h h' x k E K; cbn in E; [|now injection E as <-]. destruct (leaf_at h y) as [[[p0 n0] rs]|e] eqn:L; cbn in E; [|discriminate]. injection E as <-. apply kindh_upd; auto. eapply leaf_kind; eauto. Qed.
Lemma set_prev_none : forall ox p h h' y, set_prev h ox p = Ok h' -> h y = None -> h' y = None.
Proof.
  intros [x|] p h h' y E K; cbn in E; [|now injection E as <-]. destruct (leaf_at h x) as [[[p0 n0] rs]|e] eqn:L; cbn in E; [|discriminate]. injection E as <-.
  apply leaf_kind in L. destruct L as (n & L & _). rewrite upd_other; auto. congruence.
Qed.
Lemma hi_lift : forall A (r : res A) h c, hi (lift r) h c = a <~ r ;; Ok (a, h, c).
Proof. intros A [a|e] h c; reflexivity. Qed.

Section Same.
  Variable cmp : bytes -> bytes -> comparison.
  Variables divp mrgp : list rec -> bool.
  Variable weight : list rec -> N.
  Variable how : leafcf.
  Variables max_branches level_max : nat.
  Variable choose : list (id * bytes) -> nat.

  Lemma hi_down : forall n x key h c, hi (p_down cmp n x key) h c = y <~ search cmp n h x key ;; Ok (y, h, c).
  Proof. induction n as [|n IH]; intros x key h c; cbn [p_down search]; [reflexivity|]. rewrite hi_pb, hi_inner. destruct (inner_at h x) as [[e ls]|e]; cbn [bind]; [apply IH|reflexivity]. Qed.
  Lemma hi_search : forall v key h c, hi (p_search cmp v key) h c = y <~ b_search cmp (full v h c) key ;; Ok (y, h, c).
  Proof. intros. apply hi_down. Qed.
  Lemma hi_path : forall n x key hist h c, hi (p_path cmp n x key hist) h c = l <~ trace cmp n h x key hist ;; Ok (l, h, c).
  Proof. induction n as [|n IH]; intros x key hist h c; cbn [p_path trace]; [reflexivity|]. rewrite hi_pb, hi_inner. destruct (inner_at h x) as [[e ls]|e]; cbn [bind]; [apply IH|reflexivity]. Qed.
  Lemma hi_trace : forall v key h c, hi (p_trace cmp level_max v key) h c = l <~ b_trace cmp level_max (full v h c) key ;; Ok (l, h, c).
  Proof. intros. unfold p_trace, b_trace. cbn [b_level b_h b_root full]. destruct (Nat.leb _ _); [apply hi_path|reflexivity]. Qed.

  Lemma hi_div_up : forall hist level root heir child key h c, clean h c ->
    hi (p_div_up cmp max_branches hist level root heir child key) h c =
    '(h', f, l, r) <~ div_up cmp max_branches hist h c level root heir child key ;; Ok ((l, r), h', f).
  Proof.
    induction hist as [|x hist IH]; intros level root heir child key h c F; cbn [p_div_up div_up].
    - rewrite hi_new by (apply F; lia). reflexivity.
    - rewrite hi_pb, hi_inner. destruct (inner_at h x) as [[e ls]|e] eqn:E; cbn [bind]; [|reflexivity].
      assert (K : kindh h x true) by (eapply inner_kind; eauto). cbv zeta. destruct (Nat.leb _ _).
      + rewrite hi_write by exact K. reflexivity.
      + destruct (skipn _ _) as [|[mk mc] r]; [reflexivity|]. rewrite hi_new by (apply F; lia).
        assert (K2 : forall n, kindh (updn h c (Some n)) x true) by (intros n; apply kindh_new; auto).
        rewrite hi_write by apply K2. apply IH. intros y Hy. rewrite !upd_other; [apply F; lia|lia|]. intros ->. destruct K as (n & K & _). rewrite F in K by lia. discriminate.
  Qed.
  Definition back1 (r : res (bdb * heap * id)) : res bdb := '(v', h', c') <~ r ;; Ok (full v' h' c').
  Lemma hi_divide : forall v x key h c, clean h c -> divide cmp max_branches level_max (full v h c) x key = back1 (hi (p_divide cmp max_branches level_max v x key) h c).
  Proof.
    intros v x key h c F. unfold back1, divide, p_divide. rewrite hi_pb, hi_trace. destruct (b_trace cmp level_max (full v h c) key) as [hist|e]; cbn [bind]; [|reflexivity].
    rewrite hi_pb, hi_leaf. cbn [b_h full b_fresh]. destruct (leaf_at h x) as [[[p n] rs]|e] eqn:E; cbn [bind]; [|reflexivity]. cbn [hi]. cbv zeta.
    assert (K : kindh h x false) by (eapply leaf_kind; eauto). destruct (skipn _ _) as [|[mk mv] r]; [reflexivity|].
    rewrite hi_pb, hi_set_prev. change (@Some nat c) with (@Some id c). destruct (set_prev h n (Some c)) as [h1|e] eqn:E1; cbn [bind]; [|reflexivity].
    assert (K1 : kindh h1 x false) by (eapply set_prev_kind; eauto). assert (F1 : clean h1 c) by (intros y Hy; eapply set_prev_none; eauto).
    rewrite hi_new by (apply F1; lia). rewrite hi_write by (apply kindh_new; [exact K1|apply F1; lia]).
    rewrite hi_pb, hi_div_up.
    - cbn [b_level b_root full]. destruct (div_up _ _ _ _ _ _ _ _ _ _) as [[[[h3 f] l] rt]|e]; reflexivity.
    - intros y Hy. rewrite !upd_other; [apply F1; lia|lia|]. intros ->. destruct K1 as (m & K1 & _). rewrite F1 in K1 by lia. discriminate.
  Qed.

  Lemma hi_opt : forall A B (o : option A) (f : A -> prog B) h c (g : A -> res B), (forall a, o = Some a -> hi (f a) h c = b <~ g a ;; Ok (b, h, c)) ->
    hi (p_opt o f) h c = ob <~ match o with None => Ok None | Some a => b <~ g a ;; Ok (Some b) end ;; Ok (ob, h, c).
  Proof. intros A B [a|] f h c g H; [|reflexivity]. unfold p_opt. rewrite hi_pb, (H a) by reflexivity. destruct (g a); reflexivity. Qed.

  Ltac kk := repeat match goal with E : inner_at _ _ = Ok _ |- _ => apply inner_kind in E | E : leaf_at _ _ = Ok _ |- _ => apply leaf_kind in E end.
  Ltac ks := cbn [is_inn]; repeat first [eassumption | apply kindh_upd; cbn [is_inn]].
  Lemma hi_merge_up : forall hist x level root h c,
    hi (p_merge_up max_branches x hist level root) h c = '(h', l, r) <~ merge_up max_branches x hist h level root ;; Ok ((l, r), h', c).
  Proof.
    induction hist as [|par hist IH]; intros x level root h c; cbn [p_merge_up merge_up]; rewrite hi_pb, hi_inner; destruct (inner_at h x) as [[e ls]|e0] eqn:E; cbn [bind]; try reflexivity.
    - destruct (Nat.ltb _ _); [|reflexivity]. destruct ls as [|l ls]; [|reflexivity]. erewrite hi_drop by (eapply inner_kind; eauto). reflexivity.
    - destruct (Nat.ltb _ _); [|reflexivity]. rewrite hi_pb, hi_inner. destruct (inner_at h par) as [[pe pls]|e0] eqn:Ep; cbn [bind]; [|reflexivity].
      destruct (sibs pe pls x) as [[prev ikey] next]. rewrite hi_pb, (hi_opt _ _ prev _ h c (fun q => a <~ inner_at h q ;; Ok (q, a))).
      2:{ intros q _. rewrite hi_pb, hi_inner. destruct (inner_at h q); reflexivity. }
      destruct prev as [q|]; cbn [bind]; [destruct (inner_at h q) as [[qe qls]|e0] eqn:Eq; cbn [bind]; [|reflexivity]|].
      + rewrite hi_pb, (hi_opt _ _ next _ h c (fun '(nk, z) => a <~ inner_at h z ;; Ok (nk, z, a))).
        2:{ intros [nk z] _. rewrite hi_pb, hi_inner. destruct (inner_at h z); reflexivity. }
        destruct next as [[nk z]|]; cbn [bind]; [destruct (inner_at h z) as [[ze zls]|e0] eqn:Ez; cbn [bind]; [|reflexivity]|].
        * kk. destruct (Nat.leb _ _); rewrite !hi_write by (cbn [is_inn]; ks); erewrite hi_drop by ks; apply IH.
        * kk. rewrite !hi_write by (cbn [is_inn]; ks); erewrite hi_drop by ks; apply IH.
      + rewrite hi_pb, (hi_opt _ _ next _ h c (fun '(nk, z) => a <~ inner_at h z ;; Ok (nk, z, a))).
        2:{ intros [nk z] _. rewrite hi_pb, hi_inner. destruct (inner_at h z); reflexivity. }
        destruct next as [[nk z]|]; cbn [bind]; [destruct (inner_at h z) as [[ze zls]|e0] eqn:Ez; cbn [bind]; [|reflexivity]|].
        * kk. rewrite !hi_write by (cbn [is_inn]; ks); erewrite hi_drop by ks; apply IH.
        * apply IH.
  Qed.

  Lemma hi_merge : forall v x key h c, merge cmp weight max_branches level_max (full v h c) x key = back1 (hi (p_merge cmp weight max_branches level_max v x key) h c).
  Proof.
    intros v x key h c. unfold back1, merge, p_merge. rewrite hi_pb, hi_trace. destruct (b_trace cmp level_max (full v h c) key) as [[|par hist]|e]; cbn [bind]; try reflexivity.
    cbn [b_h full b_level b_root b_fresh b_first b_last b_reorg b_num b_its]. rewrite hi_pb, hi_inner. destruct (inner_at h par) as [[pe pls]|e0] eqn:Ep; cbn [bind]; [|reflexivity].
    rewrite hi_pb, hi_leaf. destruct (leaf_at h x) as [[[p n] rs]|e0] eqn:Ex; cbn [bind]; [|reflexivity].
    destruct (sibs pe pls x) as [[prev ikey] next]. rewrite hi_pb, (hi_opt _ _ prev _ h c (fun q => a <~ leaf_at h q ;; Ok (q, a))).
    2:{ intros q _. rewrite hi_pb, hi_leaf. destruct (leaf_at h q); reflexivity. }
    destruct prev as [q|]; cbn [bind]; [destruct (leaf_at h q) as [[[qp qn] qrs]|e0] eqn:Eq; cbn [bind]; [|reflexivity]|].
    - rewrite hi_pb, (hi_opt _ _ next _ h c (fun '(_, z) => a <~ leaf_at h z ;; Ok (z, a))).
      2:{ intros [nk z] _. rewrite hi_pb, hi_leaf. destruct (leaf_at h z); reflexivity. }
      destruct next as [[nk z]|]; cbn [bind]; [destruct (leaf_at h z) as [[[zp zn] zrs]|e0] eqn:Ez; cbn [bind]; [|reflexivity]|].
      + kk. destruct (weight qrs <=? weight zrs)%N.
        * rewrite hi_write by ks. rewrite hi_pb.
          assert (M : forall hh, (hh = updn h q (Some (Leaf qp n (qrs ++ rs)))) -> hi (match n with Some _ => p_set_prev (Some z) (Some q) | None => Ret tt end) hh c = h2 <~ match n with Some _ => set_prev hh (Some z) (Some q) | None => Ok hh end ;; Ok (tt, h2, c)).
          { intros hh _. destruct n; [apply hi_set_prev|reflexivity]. }
          rewrite (M _ eq_refl). destruct (match n with Some _ => set_prev _ _ _ | None => Ok _ end) as [h2|e0] eqn:E2; cbn [bind]; [|reflexivity].
          assert (KK : forall y k, kindh h y k -> kindh h2 y k). { intros y k Hk. assert (kindh (updn h q (Some (Leaf qp n (qrs ++ rs)))) y k) by ks. destruct n; [eapply set_prev_kind; eauto|now injection E2 as <-]. }
          rewrite hi_write by (apply KK; ks). erewrite hi_drop by (apply kindh_upd; apply KK; eassumption). rewrite hi_pb, hi_merge_up. destruct (merge_up _ _ _ _ _ _) as [[[h4 l] r]|e0]; reflexivity.
        * rewrite hi_write by ks. rewrite hi_pb.
          assert (M : forall hh, (hh = updn h z (Some (Leaf p zn (rs ++ zrs)))) -> hi (match p with Some _ => p_set_next (Some q) (Some z) | None => Ret tt end) hh c = h2 <~ match p with Some _ => set_next hh (Some q) (Some z) | None => Ok hh end ;; Ok (tt, h2, c)).
          { intros hh _. destruct p; [apply hi_set_next|reflexivity]. }
          rewrite (M _ eq_refl). destruct (match p with Some _ => set_next _ _ _ | None => Ok _ end) as [h2|e0] eqn:E2; cbn [bind]; [|reflexivity].
          assert (KK : forall y k, kindh h y k -> kindh h2 y k). { intros y k Hk. assert (kindh (updn h z (Some (Leaf p zn (rs ++ zrs)))) y k) by ks. destruct p; [eapply set_next_kind; eauto|now injection E2 as <-]. }
          rewrite hi_pb, hi_lift. destruct (join_next pe pls x z) as [[pe' pls']|e0]; cbn [bind]; [|reflexivity].
          rewrite hi_write by (apply KK; ks). erewrite hi_drop by (apply kindh_upd; apply KK; eassumption). rewrite hi_pb, hi_merge_up. destruct (merge_up _ _ _ _ _ _) as [[[h4 l] r]|e0]; reflexivity.
      + kk. rewrite hi_write by ks. rewrite hi_pb.
        assert (M : forall hh, (hh = updn h q (Some (Leaf qp n (qrs ++ rs)))) -> hi (match n with Some _ => p_set_prev n (Some q) | None => Ret tt end) hh c = h2 <~ match n with Some _ => set_prev hh n (Some q) | None => Ok hh end ;; Ok (tt, h2, c)).
        { intros hh _. destruct n; [apply hi_set_prev|reflexivity]. }
        rewrite (M _ eq_refl). destruct (match n with Some _ => set_prev _ _ _ | None => Ok _ end) as [h2|e0] eqn:E2; cbn [bind]; [|reflexivity].
        assert (KK : forall y k, kindh h y k -> kindh h2 y k). { intros y k Hk. assert (kindh (updn h q (Some (Leaf qp n (qrs ++ rs)))) y k) by ks. destruct n; [eapply set_prev_kind; eauto|now injection E2 as <-]. }
        rewrite hi_write by (apply KK; ks). erewrite hi_drop by (apply kindh_upd; apply KK; eassumption). rewrite hi_pb, hi_merge_up. destruct (merge_up _ _ _ _ _ _) as [[[h4 l] r]|e0]; reflexivity.
    - rewrite hi_pb, (hi_opt _ _ next _ h c (fun '(_, z) => a <~ leaf_at h z ;; Ok (z, a))).
      2:{ intros [nk z] _. rewrite hi_pb, hi_leaf. destruct (leaf_at h z); reflexivity. }
      destruct next as [[nk z]|]; cbn [bind]; [destruct (leaf_at h z) as [[[zp zn] zrs]|e0] eqn:Ez; cbn [bind]; [|reflexivity]|].
      + kk. rewrite hi_write by ks. rewrite hi_pb.
        assert (M : forall hh, (hh = updn h z (Some (Leaf p zn (rs ++ zrs)))) -> hi (match p with Some _ => p_set_next p (Some z) | None => Ret tt end) hh c = h2 <~ match p with Some _ => set_next hh p (Some z) | None => Ok hh end ;; Ok (tt, h2, c)).
        { intros hh _. destruct p; [apply hi_set_next|reflexivity]. }
        rewrite (M _ eq_refl). destruct (match p with Some _ => set_next _ _ _ | None => Ok _ end) as [h2|e0] eqn:E2; cbn [bind]; [|reflexivity].
        assert (KK : forall y k, kindh h y k -> kindh h2 y k). { intros y k Hk. assert (kindh (updn h z (Some (Leaf p zn (rs ++ zrs)))) y k) by ks. destruct p; [eapply set_next_kind; eauto|now injection E2 as <-]. }
        rewrite hi_pb, hi_lift. destruct (join_next pe pls x z) as [[pe' pls']|e0]; cbn [bind]; [|reflexivity].
        rewrite hi_write by (apply KK; ks). erewrite hi_drop by (apply kindh_upd; apply KK; eassumption). rewrite hi_pb, hi_merge_up. destruct (merge_up _ _ _ _ _ _) as [[[h4 l] r]|e0]; reflexivity.
      + rewrite hi_pb, hi_merge_up. destruct (merge_up _ _ _ _ _ _) as [[[h4 l] r]|e0]; reflexivity.
  Qed.

  Lemma hi_reorganize_loop : forall fuel v done h c, clean h c ->
    reorganize_loop cmp divp mrgp weight max_branches level_max choose fuel (full v h c) done = back1 (hi (p_reorganize_loop cmp divp mrgp weight max_branches level_max choose fuel v done) h c).
  Proof.
    induction fuel as [|fu IH]; intros v done h c F; cbn [reorganize_loop p_reorganize_loop]; [reflexivity|]. cbn [full b_reorg b_h b_root]. cbv zeta.
    destruct (nth_error (b_reorg v) _) as [[x k]|]; [|reflexivity].
    assert (SR : forall l, set_reorg (full v h c) l = full (set_reorg v l) h c) by reflexivity. rewrite SR.
    set (v1 := set_reorg v _).
    match goal with |- context [existsb ?f ?l] => destruct (existsb f l) end; [apply IH; auto|].
    unfold back1. rewrite hi_pb, hi_leaf. destruct (leaf_at h x) as [[[p n] rs]|e]; cbn [bind]; [|reflexivity].
    rewrite hi_pb. set (q := if divp rs then p_divide cmp max_branches level_max v1 x k else if mrgp rs && negb (x =? b_root v) then p_merge cmp weight max_branches level_max v1 x k else Ret v1).
    assert (Q : (if divp rs then divide cmp max_branches level_max (full v1 h c) x k else if mrgp rs && negb (x =? b_root v) then merge cmp weight max_branches level_max (full v1 h c) x k else Ok (full v1 h c)) = back1 (hi q h c)).
    { unfold q. destruct (divp rs); [apply hi_divide; auto|]. destruct (mrgp rs && negb (x =? b_root v)); [apply hi_merge|reflexivity]. }
    rewrite Q. unfold back1 at 1. destruct (hi q h c) as [[[v2 h2] c2]|e] eqn:E; cbn [bind]; [|reflexivity]. apply IH. eapply hi_clean; eauto.
  Qed.
  Lemma hi_reorganize : forall v h c, clean h c ->
    reorganize cmp divp mrgp weight max_branches level_max choose (full v h c) = back1 (hi (p_reorganize cmp divp mrgp weight max_branches level_max choose v) h c).
  Proof. intros. now apply hi_reorganize_loop. Qed.

  Definition back2 {S} (r : res ((bdb * S) * heap * id)) : res (bdb * S) := '(v', st', h', c') <~ r ;; Ok (full v' h' c', st').
  Definition back3 {S T} (r : res ((T * bdb * S) * heap * id)) : res (T * bdb * S) := '(t, v', st', h', c') <~ r ;; Ok (t, full v' h' c', st').
  Lemma note_full : forall v h c x rs, note (full v h c) x rs = v' <~ note v x rs ;; Ok (full v' h c).
  Proof. intros v h c x [|[k val] rs]; [reflexivity|]. cbn [note bind]. unfold add_reorg. cbn [full b_reorg]. match goal with |- context [existsb ?f ?l] => destruct (existsb f l) end; reflexivity. Qed.
  Lemma note_del_full : forall v h c x rs k0, note_del how (full v h c) x rs k0 = v' <~ note_del how v x rs k0 ;; Ok (full v' h c).
  Proof.
    intros v h c x [|r rs] k0; [|apply note_full]. cbn [note_del]. destruct (h_strict how); [reflexivity|]. cbn [bind]. unfold add_reorg. cbn [full b_reorg].
    match goal with |- context [existsb ?f ?l] => destruct (existsb f l) end; reflexivity.
  Qed.
  Lemma put_full : forall v h c x p n rs num, put_leaf (full v h c) x p n rs num = full (with_num v num) (updn h x (Some (Leaf p n rs))) c.
  Proof. reflexivity. Qed.
  Ltac notes := rewrite ?put_full, ?note_full, ?note_del_full; rewrite ?hi_pb, ?hi_lift; match goal with |- context [note_del how ?v ?x ?rs ?k] => destruct (note_del how v x rs k) | |- context [note ?v ?x ?rs] => destruct (note v x rs) | _ => idtac end; reflexivity.
  Lemma hi_impl : forall S v x key (pr : proc S) w st h c, b_impl cmp divp mrgp how (full v h c) x key pr w st = back2 (hi (p_impl cmp divp mrgp how v x key pr w st) h c).
  Proof.
    intros S v x key pr w st h c. unfold back2, b_impl, p_impl. rewrite hi_pb, hi_leaf. cbn [full b_h]. destruct (leaf_at h x) as [[[p n] rs]|e] eqn:E; cbn [bind]; [|reflexivity].
    change (mkB h c (b_level v) (b_root v) (b_first v) (b_last v) (b_reorg v) (b_num v) (b_its v)) with (full v h c). cbn [b_num full b_root]. kk.
    destruct (lower cmp key rs) as [l1 l2].
    set (m1 := (let '(a, st1) := on_empty pr key st in _) : res (bdb * S)). set (m2 := (let '(a, st1) := on_empty pr key st in _) : prog (bdb * S)).
    assert (M : m1 = '(v', st', h', c') <~ hi m2 h c ;; Ok (full v' h' c', st')).
    { unfold m1, m2. clear m1 m2. destruct (on_empty pr key st) as [[| |val] st1]; try reflexivity. destruct w; [|reflexivity]. cbv zeta. rewrite hi_write by ks. destruct (divp _); notes. }
    clearbody m1 m2. destruct l2 as [|[k val] r]; [exact M|]. destruct (ltb cmp key k); [exact M|]. clear M.
    destruct (on_full pr k val st) as [a st1]. destruct w; cbn [negb]; [|reflexivity]. destruct a as [| |val1]; [reflexivity| |]; cbv zeta.
    - rewrite hi_write by ks. destruct (mrgp _ && _); notes.
    - rewrite hi_write by ks. destruct (h_check how); [|notes]. destruct (blen val <? blen val1)%N; [destruct (divp _); notes|]. destruct (blen val1 <? blen val)%N; [|notes]. destruct (mrgp _ && _); notes.
  Qed.

  Notation reorg := (p_reorganize cmp divp mrgp weight max_branches level_max choose).
  Lemma hi_when : forall (w : bool) v h c, clean h c ->
    (if w then reorganize cmp divp mrgp weight max_branches level_max choose (full v h c) else Ok (full v h c)) = back1 (hi (if w then reorg v else Ret v) h c).
  Proof. intros [|] v h c F; [now apply hi_reorganize|reflexivity]. Qed.
  Ltac whend w v h c F v1 h1 c1 F1 :=
    rewrite (hi_when w v h c F); unfold back1; rewrite hi_pb;
    let E := fresh "E" in destruct (hi (if w then reorg v else Ret v) h c) as [[[v1 h1] c1]|] eqn:E; cbn [bind]; [assert (F1 : clean h1 c1) by (eapply hi_clean; eauto)|reflexivity].
  Lemma hi_process : forall S v key (pr : proc S) w st h c, clean h c ->
    b_process cmp divp mrgp weight how max_branches level_max choose (full v h c) key pr w st = back2 (hi (p_process cmp divp mrgp weight how max_branches level_max choose v key pr w st) h c).
  Proof.
    intros S v key pr w st h c F. unfold back2, b_process, p_process. whend w v h c F v1 h1 c1 F1. rewrite hi_pb, hi_search. destruct (b_search cmp (full v1 h1 c1) key) as [x|e]; cbn [bind]; [|reflexivity]. apply hi_impl.
  Qed.
  Lemma hi_search_all : forall keys v h c, hi (p_search_all cmp v keys) h c = xs <~ search_all cmp (full v h c) keys ;; Ok (xs, h, c).
  Proof.
    induction keys as [|k keys IH]; intros v h c; cbn [p_search_all search_all]; [reflexivity|]. rewrite hi_pb, hi_search. destruct (b_search cmp (full v h c) k) as [x|e]; cbn [bind]; [|reflexivity].
    rewrite hi_pb, IH. destruct (search_all cmp (full v h c) keys); reflexivity.
  Qed.
  Lemma hi_impl_all : forall S xs (l : list (bytes * proc S)) w v st h c, impl_all cmp divp mrgp how (full v h c) xs l w st = back2 (hi (p_impl_all cmp divp mrgp how v xs l w st) h c).
  Proof.
    intros S. induction xs as [|x xs IH]; intros l w v st h c; cbn [impl_all p_impl_all]; [reflexivity|]. destruct l as [|[k p] l]; [reflexivity|].
    rewrite hi_impl. unfold back2. rewrite hi_pb. destruct (hi (p_impl cmp divp mrgp how v x k p w st) h c) as [[[[v1 st1] h1] c1]|e]; cbn [bind]; [|reflexivity]. apply IH.
  Qed.
  Lemma hi_multi : forall S (l : list (bytes * proc S)) w v st h c, clean h c ->
    b_multi cmp divp mrgp weight how max_branches level_max choose false (full v h c) l w st = back2 (hi (p_multi cmp divp mrgp weight how max_branches level_max choose v l w st) h c).
  Proof.
    intros S l w v st h c F. unfold back2, b_multi, p_multi. cbn [orb]. whend w v h c F v1 h1 c1 F1. rewrite hi_pb, hi_search_all. destruct (search_all cmp (full v1 h1 c1) (map fst l)) as [xs|e]; cbn [bind]; [|reflexivity]. apply hi_impl_all.
  Qed.
  Lemma hi_first_from : forall S fuel v ox (pr : proc S) w st h c, first_from cmp divp mrgp how fuel (full v h c) ox pr w st = back3 (hi (p_first_from cmp divp mrgp how fuel v ox pr w st) h c).
  Proof.
    intros S. induction fuel as [|fu IH]; intros v [x|] pr w st h c; cbn [first_from p_first_from]; try reflexivity. unfold back3. rewrite hi_pb, hi_leaf. cbn [b_h full].
    destruct (leaf_at h x) as [[[p n] rs]|e]; cbn [bind]; [|reflexivity]. destruct rs as [|[k val] rs]; [apply IH|]. rewrite hi_impl. unfold back2. rewrite hi_pb.
    destruct (hi (p_impl cmp divp mrgp how v x k pr w st) h c) as [[[[v1 st1] h1] c1]|e]; reflexivity.
  Qed.
  Lemma hi_first : forall S v (pr : proc S) w st h c, clean h c ->
    b_first_of cmp divp mrgp weight how max_branches level_max choose false (full v h c) pr w st = back3 (hi (p_first cmp divp mrgp weight how max_branches level_max choose v pr w st) h c).
  Proof. intros S v pr w st h c F. unfold back3, b_first_of, p_first. cbn [orb negb andb]. whend w v h c F v1 h1 c1 F1. cbn [hi full b_fresh b_first]. apply hi_first_from. Qed.
  Lemma hi_impl_keys : forall S keys v x (pr : proc S) st h c, impl_keys cmp divp mrgp how (full v h c) x keys pr st = back2 (hi (p_impl_keys cmp divp mrgp how v x keys pr st) h c).
  Proof.
    intros S. induction keys as [|k keys IH]; intros v x pr st h c; cbn [impl_keys p_impl_keys]; [reflexivity|]. rewrite hi_impl. unfold back2. rewrite hi_pb.
    destruct (hi (p_impl cmp divp mrgp how v x k pr true st) h c) as [[[[v1 st1] h1] c1]|e]; cbn [bind]; [|reflexivity]. apply IH.
  Qed.
  Lemma hi_each_from : forall S fuel v ox (pr : proc S) w st h c, each_from cmp divp mrgp how fuel (full v h c) ox pr w st = back2 (hi (p_each_from cmp divp mrgp how fuel v ox pr w st) h c).
  Proof.
    intros S. induction fuel as [|fu IH]; intros v [x|] pr w st h c; cbn [each_from p_each_from]; try reflexivity. unfold back2. rewrite hi_pb, hi_leaf. cbn [b_h full].
    destruct (leaf_at h x) as [[[p n] rs]|e]; cbn [bind]; [|reflexivity]. rewrite hi_pb.
    assert (Q : (if w then impl_keys cmp divp mrgp how (full v h c) x (map fst rs) pr st else Ok (full v h c, show_all rs pr st)) = back2 (hi (if w then p_impl_keys cmp divp mrgp how v x (map fst rs) pr st else Ret (v, show_all rs pr st)) h c)).
    { destruct w; [apply hi_impl_keys|reflexivity]. }
    rewrite Q. unfold back2. destruct (hi (if w then _ else _) h c) as [[[[v1 st1] h1] c1]|e]; cbn [bind]; [|reflexivity]. rewrite hi_pb, hi_leaf. cbn [b_h full].
    destruct (leaf_at h1 x) as [[[p1 n1] rs1]|e]; cbn [bind]; [|reflexivity]. apply IH.
  Qed.
  Lemma hi_each : forall S v (pr : proc S) w st h c, clean h c ->
    b_each cmp divp mrgp weight how max_branches level_max choose false (full v h c) pr w st = back2 (hi (p_each cmp divp mrgp weight how max_branches level_max choose v pr w st) h c).
  Proof. intros S v pr w st h c F. unfold back2, b_each, p_each. cbn [orb negb andb]. whend w v h c F v1 h1 c1 F1. cbn [hi full b_fresh b_first]. apply hi_each_from. Qed.

  Lemma hi_pos_first : forall fuel ox h c, hi (p_pos_first fuel ox) h c = i <~ pos_first fuel h ox ;; Ok (i, h, c).
  Proof. induction fuel as [|fu IH]; intros [x|] h c; cbn [p_pos_first pos_first]; try reflexivity. rewrite hi_pb, hi_leaf. destruct (leaf_at h x) as [[[p n] rs]|e]; cbn [bind]; [|reflexivity]. destruct rs as [|[k val] rs]; [apply IH|reflexivity]. Qed.
  Lemma hi_pos_last : forall fuel ox h c, hi (p_pos_last fuel ox) h c = i <~ pos_last fuel h ox ;; Ok (i, h, c).
  Proof. induction fuel as [|fu IH]; intros [x|] h c; cbn [p_pos_last pos_last]; try reflexivity. rewrite hi_pb, hi_leaf. destruct (leaf_at h x) as [[[p n] rs]|e]; cbn [bind]; [|reflexivity]. destruct (rev rs) as [|[k val] r]; [apply IH|reflexivity]. Qed.
  Lemma hi_home : forall v key ox h c, hi (p_home cmp v key ox) h c = x <~ home cmp (full v h c) key ox ;; Ok (x, h, c).
  Proof. intros v key [x|] h c; [reflexivity|apply hi_search]. Qed.
  Lemma hi_next : forall v key ox h c, hi (p_next cmp v key ox) h c = i <~ next_impl cmp (full v h c) key ox ;; Ok (i, h, c).
  Proof.
    intros v key ox h c. unfold p_next, next_impl. rewrite hi_pb, hi_home. destruct (home cmp (full v h c) key ox) as [x|e]; cbn [bind]; [|reflexivity]. rewrite hi_pb, hi_leaf. cbn [b_h full b_fresh].
    destruct (leaf_at h x) as [[[p n] rs]|e]; cbn [bind]; [|reflexivity]. destruct (snd (upper cmp key rs)) as [|[k val] r]; [apply hi_pos_first|reflexivity].
  Qed.
  Lemma hi_prev : forall v key ox h c, hi (p_prev cmp v key ox) h c = i <~ prev_impl cmp (full v h c) key ox ;; Ok (i, h, c).
  Proof.
    intros v key ox h c. unfold p_prev, prev_impl. rewrite hi_pb, hi_home. destruct (home cmp (full v h c) key ox) as [x|e]; cbn [bind]; [|reflexivity]. rewrite hi_pb, hi_leaf. cbn [b_h full b_fresh].
    destruct (leaf_at h x) as [[[p n] rs]|e]; cbn [bind]; [|reflexivity]. destruct (snd (lower cmp key rs)) as [|y r]; [apply hi_pos_last|]. destruct (rev (fst (lower cmp key rs))) as [|[k val] r2]; [apply hi_pos_last|reflexivity].
  Qed.
  Lemma hi_sync : forall v key ox h c, hi (p_sync cmp v key ox) h c = i <~ sync cmp (full v h c) key ox ;; Ok (i, h, c).
  Proof.
    intros v key ox h c. unfold p_sync, sync. rewrite hi_pb, hi_home. destruct (home cmp (full v h c) key ox) as [x|e]; cbn [bind]; [|reflexivity]. rewrite hi_pb, hi_leaf. cbn [b_h full b_fresh].
    destruct (leaf_at h x) as [[[p n] rs]|e]; cbn [bind]; [|reflexivity]. destruct (snd (lower cmp key rs)) as [|[k val] r]; [apply hi_pos_first|reflexivity].
  Qed.
  Lemma hi_lower_loop : forall fuel v key inc i h c, hi (p_lower_loop cmp fuel v key inc i) h c = i' <~ lower_loop cmp fuel (full v h c) key inc i ;; Ok (i', h, c).
  Proof.
    induction fuel as [|fu IH]; intros v key inc [[k ox]|] h c; cbn [p_lower_loop lower_loop]; try reflexivity.
    assert (G : hi (i1 <- p_prev cmp v key ox;; p_lower_loop cmp fu v key inc i1) h c = i' <~ (i1 <~ prev_impl cmp (full v h c) key ox ;; lower_loop cmp fu (full v h c) key inc i1) ;; Ok (i', h, c)).
    { rewrite hi_pb, hi_prev. destruct (prev_impl cmp (full v h c) key ox); cbn [bind]; [apply IH|reflexivity]. }
    destruct (cmp k key); [|reflexivity|exact G]. destruct inc; [reflexivity|exact G].
  Qed.
  Lemma hi_upper_loop : forall fuel v key inc i h c, hi (p_upper_loop cmp fuel v key inc i) h c = i' <~ upper_loop cmp fuel (full v h c) key inc i ;; Ok (i', h, c).
  Proof.
    induction fuel as [|fu IH]; intros v key inc [[k ox]|] h c; cbn [p_upper_loop upper_loop]; try reflexivity.
    assert (G : hi (i1 <- p_next cmp v key ox;; p_upper_loop cmp fu v key inc i1) h c = i' <~ (i1 <~ next_impl cmp (full v h c) key ox ;; upper_loop cmp fu (full v h c) key inc i1) ;; Ok (i', h, c)).
    { rewrite hi_pb, hi_next. destruct (next_impl cmp (full v h c) key ox); cbn [bind]; [apply IH|reflexivity]. }
    destruct (cmp k key); [|exact G|reflexivity]. destruct inc; [reflexivity|exact G].
  Qed.
  Lemma hi_it_process : forall S v j (pr : proc S) w st h c, clean h c ->
    it_process cmp divp mrgp weight how max_branches level_max choose (full v h c) j pr w st = back3 (hi (p_it_process cmp divp mrgp weight how max_branches level_max choose v j pr w st) h c).
  Proof.
    intros S v j pr w st h c F. unfold back3, it_process, p_it_process. whend w v h c F v1 h1 c1 F1. cbn [full b_its]. destruct (b_its v1 j) as [[key ox]|]; [|reflexivity].
    change (mkB h1 c1 (b_level v1) (b_root v1) (b_first v1) (b_last v1) (b_reorg v1) (b_num v1) (b_its v1)) with (full v1 h1 c1).
    rewrite hi_pb, hi_sync. destruct (sync cmp (full v1 h1 c1) key ox) as [[[k [x|]]|]|e]; cbn [bind]; try reflexivity.
    assert (SI : forall i, set_it (full v1 h1 c1) j i = full (set_it v1 j i) h1 c1) by reflexivity. cbv zeta. rewrite SI. destruct w.
    - rewrite hi_impl. unfold back2. rewrite hi_pb. destruct (hi (p_impl _ _ _ _ _ _ _ _ _ _) h1 c1) as [[[[v3 st3] h3] c3]|e]; reflexivity.
    - rewrite hi_pb, hi_leaf. cbn [full b_h]. destruct (leaf_at h1 x) as [[[p n] rs]|e]; cbn [bind]; [|reflexivity]. destruct (snd (lower cmp k rs)) as [|[k1 val] r]; reflexivity.
  Qed.

  Lemma hi_call : forall S (cl : ocall S) v st h c, clean h c -> cl <> KClear ->
    b_call cmp divp mrgp weight how max_branches level_max choose false S cl (full v h c) st = back3 (hi (p_call cmp divp mrgp weight how max_branches level_max choose S cl v st) h c).
  Proof.
    intros S cl v st h c F NC. unfold back3. destruct cl as [k p w|k val d|l w|p w|p w| |j|j|j k|j k inc|j k inc|j|j|j p w]; cbn [b_call p_call]; try contradiction.
    - rewrite hi_process by auto. unfold back2. rewrite hi_pb. destruct (hi _ h c) as [[[[v1 st1] h1] c1]|e]; reflexivity.
    - rewrite hi_process by auto. unfold back2. rewrite hi_pb. destruct (hi _ h c) as [[[[v1 st1] h1] c1]|e]; reflexivity.
    - rewrite hi_multi by auto. unfold back2. rewrite hi_pb. destruct (hi _ h c) as [[[[v1 st1] h1] c1]|e]; reflexivity.
    - rewrite hi_first by auto. unfold back3. rewrite hi_pb. destruct (hi _ h c) as [[[[[b v1] st1] h1] c1]|e]; reflexivity.
    - rewrite hi_each by auto. unfold back2. rewrite hi_pb. destruct (hi _ h c) as [[[[v1 st1] h1] c1]|e]; reflexivity.
    - cbn [hi]. rewrite hi_pb, hi_pos_first. unfold it_first. cbn [full b_fresh b_h b_first]. destruct (pos_first c h (Some (b_first v))); reflexivity.
    - cbn [hi]. rewrite hi_pb, hi_pos_last. unfold it_last. cbn [full b_fresh b_h b_last]. destruct (pos_last c h (Some (b_last v))); reflexivity.
    - reflexivity.
    - unfold it_jump_lower. rewrite hi_pb, hi_sync. destruct (sync cmp (full v h c) k None) as [i|e]; cbn [bind]; [|reflexivity]. rewrite hi_pb.
      assert (Q : hi (match i with Some _ => Ret i | None => Size (fun c0 => p_pos_last c0 (Some (b_last v))) end) h c = i1 <~ match i with None => pos_last c h (Some (b_last v)) | Some _ => Ok i end ;; Ok (i1, h, c)).
      { destruct i; [reflexivity|apply hi_pos_last]. }
      rewrite Q. cbn [full b_fresh b_h b_last]. destruct (match i with None => pos_last c h (Some (b_last v)) | Some _ => Ok i end) as [i1|e]; cbn [bind]; [|reflexivity].
      rewrite hi_pb, hi_lower_loop. destruct (lower_loop cmp 2 (full v h c) k inc i1); reflexivity.
    - unfold it_jump_upper. rewrite hi_pb, hi_sync. destruct (sync cmp (full v h c) k None) as [i|e]; cbn [bind]; [|reflexivity].
      rewrite hi_pb, hi_upper_loop. destruct (upper_loop cmp 2 (full v h c) k inc i); reflexivity.
    - unfold it_next. cbn [full b_its]. destruct (b_its v j) as [[k ox]|]; [|reflexivity]. rewrite hi_pb, hi_next. destruct (next_impl cmp _ k ox); reflexivity.
    - unfold it_previous. cbn [full b_its]. destruct (b_its v j) as [[k ox]|]; [|reflexivity]. rewrite hi_pb, hi_prev. destruct (prev_impl cmp _ k ox); reflexivity.
    - apply hi_it_process; auto.
  Qed.
  Lemma hi_calls : forall S (cs : list (ocall S)) v st h c, clean h c -> Forall (fun cl => cl <> KClear) cs ->
    b_calls cmp divp mrgp weight how max_branches level_max choose false S cs (full v h c) st = back3 (hi (p_calls cmp divp mrgp weight how max_branches level_max choose S cs v st) h c).
  Proof.
    intros S. induction cs as [|cl cs IH]; intros v st h c F NC; cbn [b_calls p_calls]; [reflexivity|]. inversion NC as [|? ? N1 N2]; subst. unfold back3. rewrite hi_call by auto. unfold back3 at 1. rewrite hi_pb.
    destruct (hi (p_call _ _ _ _ _ _ _ _ _ _ _ _) h c) as [[[[[cd v1] st1] h1] c1]|e] eqn:E; cbn [bind]; [|reflexivity]. rewrite IH by (auto; eapply hi_clean; eauto). unfold back3. rewrite hi_pb.
    destruct (hi (p_calls _ _ _ _ _ _ _ _ _ _ _ _) h1 c1) as [[[[[cds v2] st2] h2] c2]|e]; reflexivity.
  Qed.
  Lemma hi_session : forall S (cs : list (ocall S)) st, Forall (fun cl => cl <> KClear) cs ->
    b_calls cmp divp mrgp weight how max_branches level_max choose false S cs b_init st = back3 (hi (p_session cmp divp mrgp weight how max_branches level_max choose S cs st) (fun _ => None) 0).
  Proof.
    intros S cs st NC. unfold p_session. rewrite hi_new by reflexivity. rewrite <- hi_calls; auto. intros y Hy. rewrite upd_other by lia. reflexivity.
  Qed.
End Same.
