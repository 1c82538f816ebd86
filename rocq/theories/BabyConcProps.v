(** C57: what BabyDBM guarantees to concurrent threads. *)
From Coq Require Import List NArith ZArith Bool Lia Arith Sorting.Sorted.
Import ListNotations.
From Verif Require Import Bytes BytesOrder DbmModel OmapSpec OmapHist BtreeModel BtreeTree BtreeSort BtreeUp BtreeInv BtreeMerge BtreeOps BtreeRun BtreeHist BabyProps BabyPages HashMutexModel BabyConcModel BabyConcSpec BabyConcProofs.

(** The records met on the way along the links from a leaf. *)
Fixpoint walk_leaves (f : nat) (h : heap) (y : id) : res (list rec) :=
  match f with
  | O => Ub BadAccess
  | S f => '(_, nx, rs) <~ leaf_at h y ;; match nx with None => Ok rs | Some z => r <~ walk_leaves f h z ;; Ok (rs ++ r) end
  end.

Section C57.
  Variable cmp : bytes -> bytes -> comparison.
  Hypothesis PO : preorder cmp.
  Variable strict : bool.
  Variable choose : list (id * bytes) -> nat.
  Variable addr : id -> N.
  Hypothesis addr_inj : forall y z, addr y = addr z -> y = z.
  Context {S : Type}.
  Variable n : nat.
  Notation step := (step cmp baby_divide baby_merge baby_weight (baby_how strict) 256 20 choose addr n).
  Notation run := (run cmp baby_divide baby_merge baby_weight (baby_how strict) 256 20 choose addr n).
  Notation cact := (cact cmp baby_divide baby_merge baby_weight (baby_how strict) 256 20 choose addr).
  Notation exec_act := (exec_act cmp baby_divide baby_merge (baby_how strict)).
  Notation held := (pages_held addr). Notation ginv := (ginv cmp addr n). Notation sys := (sys S). Notation pc := (pc S).
  Let cmp_opp := proj1 PO. Let cmp_le_trans := proj2 PO.

  Definition honest_calls (tr : list (ev S)) : Prop := forall t c, In (ECall t c) tr -> honest c.
  Lemma inv_of tr (y : sys) : run init tr y -> honest_calls tr -> exists a Sh m g, ginv y a Sh m g /\ lrun cmp l_init tr a.
  Proof. intros R H. eapply (run_ok cmp cmp_opp cmp_le_trans baby_divide baby_merge baby_weight (baby_how strict) 256 20 choose baby_two addr addr_inj n); eauto. Qed.

  (** The memory holds these records: along the leaves, in the counter, and in the leaf that the search for a key leads to. *)
  Definition holds (s : bdb) (L : omap) : Prop :=
    (exists f, walk_leaves f (b_h s) (b_first s) = Ok L) /\ b_num s = Z.of_nat (length L) /\
    forall k, exists y p nx rs, b_search cmp s k = Ok y /\ leaf_at (b_h s) y = Ok (p, nx, rs) /\ o_find cmp k rs = o_find cmp k L.
  Lemma walk_ok s Sh m : inv cmp s [] (fill Sh m) -> forall B A lo y, Sh = A ++ (lo, y) :: B -> walk_leaves (Datatypes.S (length B)) (b_h s) y = Ok (m y ++ recs (fill B m)).
  Proof.
    intros I. assert (N : NoDup (map snd Sh)) by (pose proof (inv_nodup _ _ _ _ I) as N; rewrite fill_ids in N; exact N).
    induction B as [|[lo1 y1] B IH]; intros A lo y E; cbn [walk_leaves];
      (destruct (leaf_of cmp s Sh m y I) as (A1 & l1 & B1 & p & E1 & EL); [rewrite E, map_app; apply in_or_app; right; left; reflexivity|]);
      (assert (Q : A1 = A /\ l1 = lo /\ B1 = _) by (rewrite E in E1, N; apply (split_uniq A lo _ A1 l1 B1 y N E1))); destruct Q as (-> & -> & ->); rewrite EL; cbn [bind].
    - cbn. now rewrite app_nil_r.
    - cbn [snd length]. change (walk_leaves (Datatypes.S (length B)) (b_h s) y1) with (walk_leaves (Datatypes.S (length B)) (b_h s) y1). rewrite (IH (A ++ [(lo, y)]) lo1 y1); [reflexivity|]. rewrite <- app_assoc. exact E.
  Qed.
  Definition peek_proc : proc (option (bytes * bytes)) := mkProc (fun k v _ => (ANoop, Some (k, v))) (fun _ _ => (ANoop, None)).
  Lemma peek_find L k : snd (o_process cmp L k peek_proc true None) = o_find cmp k L.
  Proof. unfold o_process, o_call. destruct (o_find cmp k L) as [[k1 v]|]; reflexivity. Qed.
  Lemma inv_holds s Sh m : inv cmp s [] (fill Sh m) -> holds s (recs (fill Sh m)).
  Proof.
    intros I. split; [|split; [apply (i_num _ _ _ _ I)|]].
    - pose proof (inv_first _ _ _ _ I) as F. destruct Sh as [|[lo z] B]; [discriminate|]. cbn in F. injection F as <-. eexists. apply (walk_ok s _ m I B [] lo z). reflexivity.
    - intros k. pose proof (search_sure cmp cmp_opp cmp_le_trans _ _ k I) as R. destruct (b_search cmp s k) as [y|e]; cbn [sure] in R; [|contradiction].
      destruct (leaf_of cmp s Sh m y I (route_in cmp _ _ _ _ R)) as (A & lo & B & p & ESh & EL). exists y, p. eexists. exists (m y). split; [reflexivity|]. split; [exact EL|].
      assert (N : NoDup (map snd Sh)) by (pose proof (inv_nodup _ _ _ _ I) as N; rewrite fill_ids in N; exact N).
      pose proof (inv_ss _ _ _ _ I) as Hs. pose proof (inv_hdsome _ _ _ _ I) as Hd. rewrite <- !peek_find. subst Sh. rewrite (page_process cmp cmp_opp cmp_le_trans A lo y B m k N Hs Hd R). reflexivity.
  Qed.

  (** Whatever the interleaving of any number of threads: the calls and their results are those of an execution of the specification;
      and whenever no call holds the lock of the object, the memory is what the records are. *)
  Theorem C57_linearizable tr (y : sys) : run init tr y -> honest_calls tr ->
    exists a, lrun cmp l_init tr a /\ ascending cmp (l_recs a) /\ ((forall t, main_of (y_pc y t) = None) -> holds (y_s y) (l_recs a)).
  Proof.
    intros R H. destruct (inv_of tr y R H) as (a & Sh & m & g & G & L). exists a. split; [exact L|]. split; [rewrite <- (g_recs _ _ _ _ _ _ _ _ G); apply (ss_recs cmp), (g_ss _ _ _ _ _ _ _ _ G)|].
    intros Q. rewrite <- (g_recs _ _ _ _ _ _ _ _ G). replace (fill Sh g) with (fill Sh m); [apply inv_holds, (g_inv _ _ _ _ _ _ _ _ G)|]. apply fill_ext. intros z Hz. apply (g_agree _ _ _ _ _ _ _ _ G z Hz). intros t O. specialize (Q t). destruct (y_pc y t); cbn in *; try contradiction; discriminate.
  Qed.
  (** The only undefined behaviour is that of a single thread: more than 20 levels of inner nodes, and, if it is taken as such, reading
      the front of a vector that has just become empty (C13). *)
  Theorem C57_defined tr (y : sys) t e : run init tr y -> honest_calls tr -> cact (y_s y) (y_pc y t) = UB e -> (e = EmptyFront /\ strict = true) \/ e = DeepTree.
  Proof.
    intros R H C. destruct (inv_of tr y R H) as (a & Sh & m & g & G & _). pose proof (act_ok cmp cmp_opp cmp_le_trans baby_divide baby_merge baby_weight (baby_how strict) 256 20 choose baby_two addr addr_inj n y a Sh m g t G) as A. rewrite C in A. exact A.
  Qed.

  (** * Races *)
  Definition race (y : sys) : Prop := exists t u pl b, t <> u /\ access (y_pc y t) pl true /\ access (y_pc y u) pl b.
  Lemma noeff_write (a : act S) : noeff a -> ~ may_write a.
  Proof. destruct a; cbn; intros H W; try contradiction; [congruence|]. destruct W as (k & v & s & W). apply W, H. Qed.
  Lemma access_held (y : sys) (a : @lsys S) Sh m g t z b : ginv y a Sh m g -> access (y_pc y t) (Records z) b -> main_of (y_pc y t) = Some MX \/ (In z (held (y_pc y t)) /\ (b = true -> held_mode (y_pc y t) = true)).
  Proof.
    intros G A. pose proof (g_thr _ _ _ _ _ _ _ _ G t) as T. remember (Records z) as pl eqn:EZ. destruct A; try discriminate EZ; try (left; reflexivity); injection EZ as ->; right; cbn [trel pages_held held_mode] in *.
    - destruct T as (T1 & _). rewrite app_nil_r in T1. subst got. split; [|discriminate]. apply (in_pages addr addr_inj). left. reflexivity.
    - destruct T as (T1 & _ & T2 & _). rewrite app_nil_r in T1. subst got. split; [apply (in_pages addr addr_inj); left; reflexivity|]. intros _. inversion T2 as [|? ? F _]; subst. destruct (page_mode c) eqn:PM; [reflexivity|]. exfalso. eapply noeff_write; [apply (F PM)|eassumption].
    - destruct T as (_ & _ & _ & _ & T1 & _). split; [|discriminate]. apply T1. left. reflexivity.
    - destruct T as (_ & _ & _ & T2 & T1 & _). split; [apply T1; left; reflexivity|]. intros _. inversion T2 as [|? ? F _]; subst. destruct (page_mode c) eqn:PM; [reflexivity|]. exfalso. eapply noeff_write; [apply (F PM)|eassumption].
  Qed.
  Lemma access_main (p : pc) pl b : access p pl b -> main_of p <> None. Proof. intros []; discriminate. Qed.
  Lemma write_tree (p : pc) : access p Tree true -> main_of p = Some MX.
  Proof. intros A. remember Tree as pl eqn:EZ. remember true as w eqn:EW. destruct A; try discriminate EZ; try discriminate EW; reflexivity. Qed.
  (** No two threads access the same records, or the tree, at the same time if one of them writes. *)
  Theorem C57_no_race tr (y : sys) : run init tr y -> honest_calls tr -> ~ race y.
  Proof.
    intros R H (t & u & pl & b & NE & A1 & A2). destruct (inv_of tr y R H) as (a & Sh & m & g & G & _).
    assert (X1 : main_of (y_pc y t) <> Some MX) by (intros X; apply (access_main _ _ _ A2), (g_main _ _ _ _ _ _ _ _ G t u NE X)).
    assert (X2 : main_of (y_pc y u) <> Some MX) by (intros X; apply (access_main _ _ _ A1), (g_main _ _ _ _ _ _ _ _ G u t (not_eq_sym NE) X)).
    destruct pl as [|z]; [apply X1, write_tree, A1|].
    destruct (access_held _ _ _ _ _ _ _ _ G A1) as [X|[I1 M1]]; [contradiction|]. destruct (access_held _ _ _ _ _ _ _ _ G A2) as [X|[I2 _]]; [contradiction|].
    destruct (g_held _ _ _ _ _ _ _ _ G t u z NE I1 I2) as [X _]. rewrite (M1 eq_refl) in X. discriminate.
  Qed.

  (** What the accesses leave out is neither changed nor looked at.  A node without its records: *)
  Definition bone (o : option node) : option node := match o with Some (Leaf p nx _) => Some (Leaf p nx []) | _ => o end.
  Definition same_tree (s s' : bdb) : Prop :=
    b_level s' = b_level s /\ b_root s' = b_root s /\ b_first s' = b_first s /\ b_last s' = b_last s /\ forall z, bone (b_h s' z) = bone (b_h s z).
  Definition same_at (pl : place) (s s' : bdb) : Prop := match pl with Tree => same_tree s s' | Records z => b_h s' z = b_h s z end.
  Lemma same_refl s : same_tree s s. Proof. repeat split. Qed.
  Definition puts (s s' : bdb) (y : id) : Prop := same_tree s s' /\ forall z, z <> y -> b_h s' z = b_h s z.
  Lemma puts_refl s y : puts s s y. Proof. split; [apply same_refl|reflexivity]. Qed.
  Lemma put_puts s x p nx rs rs' num : leaf_at (b_h s) x = Ok (p, nx, rs) -> puts s (put_leaf s x p nx rs' num) x.
  Proof.
    intros E. unfold leaf_at in E. destruct (b_h s x) as [[p0 n0 rs0|]|] eqn:EH; try discriminate. injection E as -> -> ->. split; [repeat split|]; cbn; intros z; unfold updn; destruct (Nat.eqb_spec z x) as [->|]; auto; [rewrite EH; reflexivity|congruence].
  Qed.
  Lemma add_puts s0 s x k y : puts s0 s y -> puts s0 (add_reorg s x k) y.
  Proof. intros [P1 P2]. unfold add_reorg. destruct (existsb _ _); split; assumption. Qed.
  Lemma note_puts s0 s x rs s' y : puts s0 s y -> note s x rs = Ok s' -> puts s0 s' y.
  Proof. intros P E. unfold note in E. destruct rs as [|[k v] rs]; [discriminate|]. injection E as <-. apply add_puts, P. Qed.
  Lemma note_del_puts s0 s x rs k s' y : puts s0 s y -> note_del (baby_how strict) s x rs k = Ok s' -> puts s0 s' y.
  Proof. intros P E. unfold note_del in E. destruct rs as [|e rs]; [|eapply note_puts; eauto]. destruct (h_strict _); [discriminate|]. injection E as <-. apply add_puts, P. Qed.
  Lemma impl_puts T s y k (p : proc T) w st s' st' : b_impl cmp baby_divide baby_merge (baby_how strict) s y k p w st = Ok (s', st') -> puts s s' y.
  Proof.
    unfold b_impl. destruct (leaf_at (b_h s) y) as [[[pv nx] rs]|e] eqn:EL; cbn [bind]; [|discriminate]. destruct (lower cmp k rs) as [l1 l2]. pose proof (fun rs' num => put_puts s y pv nx rs rs' num EL) as PP.
    assert (MISS : (let '(a, st1) := on_empty p k st in match a with ASet v => if w then let rs1 := l1 ++ (k, v) :: l2 in let s1 := put_leaf s y pv nx rs1 (b_num s + 1) in s2 <~ (if baby_divide rs1 then note s1 y rs1 else Ok s1) ;; Ok (s2, st1) else Ok (s, st1) | _ => Ok (s, st1) end) = Ok (s', st') -> puts s s' y).
    { destruct (on_empty p k st) as [a st1]. destruct a as [| |v]; try (intros E; injection E as <- <-; apply puts_refl). destruct w; [|intros E; injection E as <- <-; apply puts_refl]. cbn zeta. destruct (baby_divide _).
      - destruct (note _ y _) as [s2|e] eqn:EN; cbn [bind]; [|discriminate]. intros E; injection E as <- <-. eapply note_puts; [|exact EN]. apply PP.
      - cbn [bind]. intros E; injection E as <- <-. apply PP. }
    destruct l2 as [|[k1 v1] r]; [exact MISS|]. destruct (ltb cmp k k1); [exact MISS|]. clear MISS. destruct (on_full p k1 v1 st) as [a st1]. destruct w; cbn [negb]; [|intros E; injection E as <- <-; apply puts_refl].
    destruct a as [| |v2]; [intros E; injection E as <- <-; apply puts_refl| |].
    - destruct (baby_merge _ && _).
      + destruct (note_del _ _ _ _ _) as [s2|e] eqn:EN; cbn [bind]; [|discriminate]. intros E; injection E as <- <-. eapply note_del_puts; [|exact EN]. apply PP.
      + cbn [bind]. intros E; injection E as <- <-. apply PP.
    - cbn [h_check baby_how bind]. intros E; injection E as <- <-. apply PP.
  Qed.
  Lemma append_puts s y k v d s' : append_impl cmp baby_divide s y k v d = Ok s' -> puts s s' y.
  Proof.
    rewrite (append_as cmp baby_divide baby_merge). unfold b_impl. destruct (leaf_at (b_h s) y) as [[[pv nx] rs]|e] eqn:EL; cbn [bind]; [|discriminate]. destruct (lower cmp k rs) as [l1 l2]. pose proof (fun rs' num => put_puts s y pv nx rs rs' num EL) as PP. cbn [on_empty on_full append_proc h_check negb].
    assert (MISS : forall rs1, match (s2 <~ (if baby_divide rs1 then note (put_leaf s y pv nx rs1 (b_num s + 1)) y rs1 else Ok (put_leaf s y pv nx rs1 (b_num s + 1))) ;; Ok (s2, tt)) with Ok (s', _) => Ok s' | Ub e => Ub e end = Ok s' -> puts s s' y).
    { intros rs1. destruct (baby_divide rs1); [destruct (note _ y _) as [s2|e] eqn:EN; cbn [bind]; [|discriminate]|cbn [bind]]; intros E; injection E as <-; [eapply note_puts; [|exact EN]|]; apply PP. }
    destruct l2 as [|[k1 v1] r]; [apply MISS|]. destruct (ltb cmp k k1); [apply MISS|]. cbn [bind]. intros E; injection E as <-. apply PP.
  Qed.
  Lemma impl_still T s y k (p : proc T) st s' st' : b_impl cmp baby_divide baby_merge (baby_how strict) s y k p false st = Ok (s', st') -> s' = s.
  Proof.
    unfold b_impl. destruct (leaf_at (b_h s) y) as [[[pv nx] rs]|e]; cbn [bind]; [|discriminate]. destruct (lower cmp k rs) as [l1 l2]. destruct (on_empty p k st) as [[| |v] st1]; (destruct l2 as [|[k1 v1] r]; [intros E; injection E as <- <-; reflexivity|]); (destruct (ltb cmp k k1); [intros E; injection E as <- <-; reflexivity|]); destruct (on_full p k1 v1 st) as [a st2]; cbn [negb]; intros E; injection E as <- <-; reflexivity.
  Qed.
  Lemma first_still s y k v rs (p : proc S) st s' st' pv nx : leaf_at (b_h s) y = Ok (pv, nx, (k, v) :: rs) -> reader p -> b_impl cmp baby_divide baby_merge (baby_how strict) s y k p true st = Ok (s', st') -> s' = s.
  Proof.
    intros EL R. unfold b_impl. rewrite EL. cbn [bind]. unfold lower. cbn [split_at]. unfold ltb. rewrite (cmp_refl cmp cmp_opp). rewrite (cmp_refl cmp cmp_opp). specialize (R k v st). destruct (on_full p k v st) as [a st1]. cbn in R. subst a. cbn [negb]. intros E; injection E as <- <-. reflexivity.
  Qed.
  Lemma exec_puts s y (a : act S) x s' x' more : exec_act s y a x = Ok (s', x', more) -> puts s s' y /\ (~ may_write a -> s' = s).
  Proof.
    destruct a as [k p w|k v d|p|p|p]; cbn [BabyConcModel.exec_act may_write].
    - destruct (b_impl _ _ _ _ s y k p w (x_s x)) as [[s1 st]|e] eqn:E; cbn [bind]; [|discriminate]. intros X; injection X as <- <- <-. split; [eapply impl_puts; exact E|]. intros W. destruct w; [congruence|]. eapply impl_still; exact E.
    - destruct (append_impl _ _ s y k v d) as [s1|e] eqn:E; cbn [bind]; [|discriminate]. intros X; injection X as <- <- <-. split; [eapply append_puts; exact E|intros W; destruct W; exact I].
    - destruct (leaf_at (b_h s) y) as [[[pv nx] rs]|e] eqn:EL; cbn [bind]; [|discriminate]. destruct rs as [|[k v] rs]; [intros X; injection X as <- <- <-; split; [apply puts_refl|reflexivity]|].
      destruct (b_impl _ _ _ _ s y k p true (x_s x)) as [[s1 st]|e] eqn:E; cbn [bind]; [|discriminate]. intros X; injection X as <- <- <-. split; [eapply impl_puts; exact E|]. intros W. eapply first_still; [exact EL| |exact E].
      intros k0 v0 s0. destruct (fst (on_full p k0 v0 s0)) eqn:EA; [reflexivity| |]; exfalso; apply W; exists k0, v0, s0; rewrite EA; discriminate.
    - destruct (leaf_at (b_h s) y) as [[[pv nx] rs]|e]; cbn [bind]; [|discriminate]. intros X; injection X as <- <- <-. split; [apply puts_refl|reflexivity].
    - destruct (leaf_at (b_h s) y) as [[[pv nx] rs]|e]; cbn [bind]; [|discriminate]. intros X; injection X as <- <- <-. split; [apply puts_refl|reflexivity].
  Qed.
  Lemma act_puts s (p : pc) s' y (a : act S) : puts s s' y -> (~ may_write a -> s' = s) -> (may_write a -> access p (Records y) true) -> forall pl, ~ access p pl true -> same_at pl s s'.
  Proof.
    intros [P1 P2] W A [|z] NA; cbn [same_at]; [exact P1|]. destruct (Nat.eq_dec z y) as [->|NZ]; [|apply P2, NZ]. rewrite W; [reflexivity|]. intros M. apply NA, A, M.
  Qed.
  Theorem C57_writes s (p : pc) s' p' pl : cact s p = Next s' p' -> ~ access p pl true -> same_at pl s s'.
  Proof.
    assert (SAME : same_at pl s s) by (destruct pl; cbn; [apply same_refl|reflexivity]).
    intros C NA. destruct p as [|c|c|c|c|c|c l k x got todo|c l k x r|c k x todo|c|x]; cbn [BabyConcModel.cact] in C; try discriminate.
    - exfalso. apply NA. constructor.
    - destruct c; try (injection C as <- <-; exact SAME); try discriminate.
      + destruct (b_search cmp s k); [|discriminate]. injection C as <- <-. exact SAME.
      + destruct (b_search cmp s k); [|discriminate]. injection C as <- <-. exact SAME.
      + destruct (search_all cmp s (map fst l)); [|discriminate]. injection C as <- <-. exact SAME.
    - destruct todo; [|discriminate]. destruct l as [|[y a] r]; [injection C as <- <-; exact SAME|]. destruct (exec_act s y a x) as [[[s1 x1] more]|e] eqn:E; [|discriminate]. injection C as <- <-. destruct (exec_puts _ _ _ _ _ _ _ E) as [P W]. eapply (act_puts _ _ _ y a P W); [|exact NA]. intros M. constructor. exact M.
    - destruct r as [|[y a] r]; [injection C as <- <-; exact SAME|]. destruct (exec_act s y a x) as [[[s1 x1] more]|e] eqn:E; [|discriminate]. injection C as <- <-. destruct (exec_puts _ _ _ _ _ _ _ E) as [P W]. eapply (act_puts _ _ _ y a P W); [|exact NA]. intros M. constructor. exact M.
    - destruct k as [|y]; destruct todo; try (injection C as <- <-; exact SAME). destruct (x_hit x); [injection C as <- <-; exact SAME|]. destruct (leaf_at (b_h s) y) as [[[pv nx] rs]|e]; [|discriminate]. injection C as <- <-. exact SAME.
    - exfalso. apply NA. constructor.
  Qed.
  Definition recs_at (s : bdb) (z : id) : option (list rec) := match b_h s z with Some (Leaf _ _ rs) => Some rs | _ => None end.
  Definition seen (pl : place) (s d : bdb) : Prop := match pl with Tree => same_tree s d | Records z => recs_at d z = recs_at s z end.
  Ltac xb := repeat match goal with |- context [if existsb ?f ?l then _ else _] => destruct (existsb f l) end.
  Lemma note_same s d s' x rs y : b_h d y = b_h s y -> note s x rs = Ok s' -> exists d', note d x rs = Ok d' /\ b_h d' y = b_h s' y.
  Proof.
    intros H E. unfold note in *. destruct rs as [|[k v] rs]; [discriminate|]. injection E as <-. eexists. split; [reflexivity|]. unfold add_reorg. xb; exact H.
  Qed.
  Lemma note_del_same s d s' x rs k y : b_h d y = b_h s y -> note_del (baby_how strict) s x rs k = Ok s' -> exists d', note_del (baby_how strict) d x rs k = Ok d' /\ b_h d' y = b_h s' y.
  Proof.
    intros H E. unfold note_del in *. destruct rs as [|e rs]; [|eapply note_same; eauto]. destruct (h_strict _); [discriminate|]. injection E as <-. eexists. split; [reflexivity|]. unfold add_reorg. xb; exact H.
  Qed.
  Lemma put_same s d y p nx rs a b : b_h (put_leaf d y p nx rs a) y = b_h (put_leaf s y p nx rs b) y. Proof. cbn. unfold updn. rewrite Nat.eqb_refl. reflexivity. Qed.
  Lemma leaf_same s d y : b_h d y = b_h s y -> leaf_at (b_h d) y = leaf_at (b_h s) y. Proof. intros H. unfold leaf_at. rewrite H. reflexivity. Qed.
  Lemma impl_same T hw s d y k (p : proc T) w st s' st' : h_check hw = false -> b_h d y = b_h s y -> b_root d = b_root s ->
    b_impl cmp baby_divide baby_merge hw s y k p w st = Ok (s', st') -> exists d', b_impl cmp baby_divide baby_merge hw d y k p w st = Ok (d', st') /\ b_h d' y = b_h s' y.
  Proof.
    intros HC H HR. unfold b_impl. rewrite (leaf_same s d y H), HR, HC. destruct (leaf_at (b_h s) y) as [[[pv nx] rs]|e]; cbn [bind]; [|discriminate]. destruct (lower cmp k rs) as [l1 l2].
    assert (MISS : (let '(a, st1) := on_empty p k st in match a with ASet v => if w then let rs1 := l1 ++ (k, v) :: l2 in let s1 := put_leaf s y pv nx rs1 (b_num s + 1) in s2 <~ (if baby_divide rs1 then note s1 y rs1 else Ok s1) ;; Ok (s2, st1) else Ok (s, st1) | _ => Ok (s, st1) end) = Ok (s', st') ->
      exists d', (let '(a, st1) := on_empty p k st in match a with ASet v => if w then let rs1 := l1 ++ (k, v) :: l2 in let s1 := put_leaf d y pv nx rs1 (b_num d + 1) in s2 <~ (if baby_divide rs1 then note s1 y rs1 else Ok s1) ;; Ok (s2, st1) else Ok (d, st1) | _ => Ok (d, st1) end) = Ok (d', st') /\ b_h d' y = b_h s' y).
    { destruct (on_empty p k st) as [a st1]. destruct a as [| |v]; try (intros E; injection E as <- <-; eauto; fail). destruct w; [|intros E; injection E as <- <-; eauto]. cbn zeta. destruct (baby_divide _).
      - destruct (note (put_leaf s _ _ _ _ _) y _) as [s2|e] eqn:EN; cbn [bind]; [|discriminate]. intros E; injection E as <- <-. destruct (note_same _ (put_leaf d y pv nx (l1 ++ (k, v) :: l2) (b_num d + 1)) _ _ _ y (put_same _ _ _ _ _ _ _ _) EN) as (d' & -> & D). cbn [bind]. eauto.
      - cbn [bind]. intros E; injection E as <- <-. eexists. split; [reflexivity|]. apply put_same. }
    destruct l2 as [|[k1 v1] r]; [exact MISS|]. destruct (ltb cmp k k1); [exact MISS|]. clear MISS. destruct (on_full p k1 v1 st) as [a st1]. destruct w; cbn [negb]; [|intros E; injection E as <- <-; eauto].
    destruct a as [| |v2]; [intros E; injection E as <- <-; eauto| |].
    - destruct (baby_merge _ && _).
      + destruct (note_del hw (put_leaf s _ _ _ _ _) _ _ _) as [s2|e] eqn:EN; cbn [bind]; [|discriminate]. intros E; injection E as <- <-.
        unfold note_del in *. destruct (l1 ++ r) as [|e0 rs0] eqn:ER.
        * destruct (h_strict hw); [discriminate|]. injection EN as <-. cbn [bind]. eexists. split; [reflexivity|]. unfold add_reorg. xb; apply put_same.
        * destruct (note_same _ (put_leaf d y pv nx (e0 :: rs0) (b_num d - 1)) _ _ _ y (put_same _ _ _ _ _ _ _ _) EN) as (d' & -> & D). cbn [bind]. eauto.
      + cbn [bind]. intros E; injection E as <- <-. eexists. split; [reflexivity|]. apply put_same.
    - cbn [bind]. intros E; injection E as <- <-. eexists. split; [reflexivity|]. apply put_same.
  Qed.
  Lemma exec_same s d y (a : act S) x s' x' more : b_h d y = b_h s y -> b_root d = b_root s -> exec_act s y a x = Ok (s', x', more) -> exists d', exec_act d y a x = Ok (d', x', more) /\ b_h d' y = b_h s' y.
  Proof.
    intros H HR. destruct a as [k p w|k v d0|p|p|p]; cbn [BabyConcModel.exec_act]; rewrite ?(leaf_same s d y H).
    - destruct (b_impl _ _ _ _ s y k p w (x_s x)) as [[s1 st]|e] eqn:E; cbn [bind]; [|discriminate]. intros X; injection X as <- <- <-. destruct (impl_same _ (baby_how strict) _ _ _ _ _ _ _ _ _ eq_refl H HR E) as (d' & -> & D). cbn [bind]. eauto.
    - rewrite !(append_as cmp baby_divide baby_merge). destruct (b_impl _ _ _ _ s y k _ true tt) as [[s1 st]|e] eqn:E; cbn [bind]; [|discriminate]. intros X; injection X as <- <- <-. destruct (impl_same _ (mkHow false false) _ _ _ _ _ _ _ _ _ eq_refl H HR E) as (d' & -> & D). cbn [bind]. eauto.
    - destruct (leaf_at (b_h s) y) as [[[pv nx] rs]|e]; cbn [bind]; [|discriminate]. destruct rs as [|[k v] rs]; [intros X; injection X as <- <- <-; eauto|].
      destruct (b_impl _ _ _ _ s y k p true (x_s x)) as [[s1 st]|e] eqn:E; cbn [bind]; [|discriminate]. intros X; injection X as <- <- <-. destruct (impl_same _ (baby_how strict) _ _ _ _ _ _ _ _ _ eq_refl H HR E) as (d' & -> & D). cbn [bind]. eauto.
    - destruct (leaf_at (b_h s) y) as [[[pv nx] rs]|e]; cbn [bind]; [|discriminate]. intros X; injection X as <- <- <-. eauto.
    - destruct (leaf_at (b_h s) y) as [[[pv nx] rs]|e]; cbn [bind]; [|discriminate]. intros X; injection X as <- <- <-. eauto.
  Qed.
  Lemma bone_recs s d z : bone (b_h d z) = bone (b_h s z) -> recs_at d z = recs_at s z -> b_h d z = b_h s z.
  Proof. unfold bone, recs_at. destruct (b_h d z) as [[]|], (b_h s z) as [[]|]; intros A B; congruence. Qed.
  Lemma search_same h h' k f : (forall z, bone (h' z) = bone (h z)) -> forall x, BtreeModel.search cmp f h' x k = BtreeModel.search cmp f h x k.
  Proof.
    intros B. induction f as [|f IH]; intros x; cbn; [reflexivity|]. specialize (B x). unfold inner_at. destruct (h' x) as [[]|], (h x) as [[]|]; cbn in B; try discriminate; cbn [bind]; [reflexivity| |reflexivity]. injection B as -> ->. apply IH.
  Qed.
  Lemma b_search_same s d k : same_tree s d -> b_search cmp d k = b_search cmp s k.
  Proof. intros (L & R & _ & _ & B). unfold b_search. rewrite L, R. apply search_same, B. Qed.
  Lemma all_same s d l : same_tree s d -> search_all cmp d l = search_all cmp s l.
  Proof. intros H. induction l as [|k l IH]; cbn; [reflexivity|]. rewrite (b_search_same s d k H), IH. reflexivity. Qed.
  Definition inclusive (p : pc) : Prop := match p with PReorg _ | PExcl _ => False | _ => True end.
  Theorem C57_reads s d (p : pc) s' p' : inclusive p -> (forall c, p = PFind (KCount c) -> b_num d = b_num s) -> (forall pl b, access p pl b -> seen pl s d) -> cact s p = Next s' p' ->
    exists d', cact d p = Next d' p' /\ forall z, access p (Records z) true -> recs_at d' z = recs_at s' z.
  Proof.
    intros IN NUM EQ C. destruct p as [|c|c|c|c|c|c l k x got todo|c l k x r|c k x todo|c|x]; cbn [BabyConcModel.cact] in *; try discriminate; try contradiction.
    - assert (T : same_tree s d) by (apply (EQ Tree false); constructor). assert (X : forall q : pc, exists d', Next d q = Next d' q /\ forall z, access (PFind c) (Records z) true -> recs_at d' z = recs_at s z) by (intros q; exists d; split; [reflexivity|]; intros z A; inversion A).
      destruct c; try discriminate.
      + rewrite (b_search_same s d _ T). destruct (b_search cmp s k); [|discriminate]. injection C as <- <-. apply X.
      + rewrite (b_search_same s d _ T). destruct (b_search cmp s k); [|discriminate]. injection C as <- <-. apply X.
      + rewrite (all_same s d _ T). destruct (search_all cmp s (map fst l)); [|discriminate]. injection C as <- <-. apply X.
      + injection C as <- <-. destruct T as (_ & _ & F & _). rewrite F. apply X.
      + injection C as <- <-. destruct T as (_ & _ & F & _). rewrite F. apply X.
      + injection C as <- <-. rewrite (NUM s0 eq_refl). apply X.
    - destruct todo; [|discriminate]. destruct l as [|[y a] r]; [injection C as <- <-; exists d; split; [reflexivity|]; intros z A; inversion A|].
      assert (T : same_tree s d) by (apply (EQ Tree false); constructor). assert (R : recs_at d y = recs_at s y) by (apply (EQ (Records y) false); constructor). pose proof T as (_ & RT & _ & _ & B). pose proof (bone_recs s d y (B y) R) as HH.
      destruct (exec_act s y a x) as [[[s1 x1] more]|e] eqn:E; [|discriminate]. injection C as <- <-. destruct (exec_same _ _ _ _ _ _ _ _ HH RT E) as (d' & -> & D). exists d'. split; [reflexivity|]. intros z A. inversion A; subst. unfold recs_at. rewrite D. reflexivity.
    - destruct r as [|[y a] r]; [injection C as <- <-; exists d; split; [reflexivity|]; intros z A; inversion A|].
      assert (T : same_tree s d) by (apply (EQ Tree false); constructor). assert (R : recs_at d y = recs_at s y) by (apply (EQ (Records y) false); constructor). pose proof T as (_ & RT & _ & _ & B). pose proof (bone_recs s d y (B y) R) as HH.
      destruct (exec_act s y a x) as [[[s1 x1] more]|e] eqn:E; [|discriminate]. injection C as <- <-. destruct (exec_same _ _ _ _ _ _ _ _ HH RT E) as (d' & -> & D). exists d'. split; [reflexivity|]. intros z A. inversion A; subst. unfold recs_at. rewrite D. reflexivity.
    - assert (X : forall q : pc, exists d', Next d q = Next d' q /\ forall z, access (PUn c k x todo) (Records z) true -> recs_at d' z = recs_at s z) by (intros q; exists d; split; [reflexivity|]; intros z A; inversion A).
      destruct k as [|y]; destruct todo; try (injection C as <- <-; apply X). destruct (x_hit x); [injection C as <- <-; apply X|].
      assert (T : same_tree s d) by (apply (EQ Tree false); constructor). destruct T as (_ & _ & _ & _ & B). specialize (B y). unfold leaf_at in *. destruct (b_h s y) as [[pv nx rs|]|]; try discriminate. destruct (b_h d y) as [[pv' nx' rs'|]|]; try discriminate. cbn in B. injection B as -> ->. cbn [next_of] in *. injection C as <- <-. apply X.
  Qed.

  (** * Progress *)
  Definition moves (y : sys) : Prop := exists e y', (forall u c, e <> ECall u c) /\ step y e y'.
  Definition stuck (y : sys) : Prop := exists u e, cact (y_s y) (y_pc y u) = UB e /\ ((e = EmptyFront /\ strict = true) \/ e = DeepTree).
  Definition waits (p : pc) : Prop := match p with PIdle | PWant _ | PMain _ | PLock _ _ _ _ _ (_ :: _) => True | _ => False end.
  Lemma can_act (y : sys) a Sh m g t : ginv y a Sh m g -> ~ waits (y_pc y t) -> moves y \/ stuck y.
  Proof.
    intros G H. pose proof (act_ok cmp cmp_opp cmp_le_trans baby_divide baby_merge baby_weight (baby_how strict) 256 20 choose baby_two addr addr_inj n y a Sh m g t G) as A.
    destruct (cact (y_s y) (y_pc y t)) as [|e|s' p'] eqn:C; [|right; exists t, e; auto|left; do 2 eexists; split; [|eapply st_act; exact C]; discriminate].
    left. destruct (y_pc y t) as [|c|c|c|c|c|c l k x got todo|c l k x r|c k x todo|c|x] eqn:EP; cbn [waits] in H; try (exfalso; apply H; exact I).
    - do 2 eexists. split; [|eapply st_check with (b := true); exact EP]. discriminate.
    - exfalso. cbn in C. destruct (reorganize _ _ _ _ _ _ _ _); discriminate.
    - exfalso. destruct (finds cmp cmp_opp cmp_le_trans baby_divide baby_merge baby_weight (baby_how strict) 256 20 choose addr addr_inj n y a Sh m g t c G EP) as (p' & a' & E1 & _). rewrite EP in E1. rewrite E1 in C. discriminate.
    - exfalso. destruct todo; [|apply H; exact I]. cbn in C. destruct l as [|[y0 a0] r]; [discriminate|]. destruct (exec_act _ _ _ _) as [[[? ?] ?]|]; discriminate.
    - exfalso. cbn in C. destruct r as [|[y0 a0] r]; [discriminate|]. destruct (exec_act _ _ _ _) as [[[? ?] ?]|]; discriminate.
    - exfalso. cbn in C. destruct k; destruct todo; try discriminate. destruct (x_hit x); [discriminate|]. destruct (leaf_at _ _) as [[[? ?] ?]|]; discriminate.
    - discriminate.
    - do 2 eexists. split; [|eapply st_ret; exact EP]. discriminate.
  Qed.
  Lemma search (P : nat -> Prop) : (forall u, P u \/ ~ P u) -> forall m, (exists u, (u < m)%nat /\ P u) \/ forall u, (u < m)%nat -> ~ P u.
  Proof.
    intros D. induction m as [|m [(u & H1 & H2)|H]]; [right; lia|left; exists u; split; [lia|exact H2]|]. destruct (D m) as [X|X]; [left; exists m; split; [lia|exact X]|]. right. intros u Hu. destruct (Nat.eq_dec u m) as [->|]; [exact X|apply H; lia].
  Qed.
  Lemma sorted_split (a : list id) j b x : StronglySorted (fun a b => (addr a < addr b)%N) (a ++ j :: b) -> In x a -> (addr x < addr j)%N.
  Proof.
    induction a as [|z a IH]; intros H Hx; [destruct Hx|]. cbn [app] in H. apply StronglySorted_inv in H. destruct H as [H1 H2]. destruct Hx as [->|Hx]; [|auto]. rewrite Forall_forall in H2. apply H2. apply in_or_app. cbn. auto.
  Qed.
  Definition want (p : pc) : N := match p with PLock _ _ _ _ _ (z :: _) => addr z | _ => 0%N end.
  Lemma want_bound (f : nat -> pc) : forall m, exists b, forall u, u < m -> (want (f u) <= b)%N.
  Proof. induction m as [|m (b & IH)]; [exists 0%N; lia|]. exists (N.max b (want (f m))). intros u Hu. destruct (Nat.eq_dec u m) as [->|]; [lia|]. specialize (IH u ltac:(lia)). lia. Qed.
  Lemma lock_moves (y : sys) a Sh m g B : ginv y a Sh m g -> (forall u, u < n -> (want (y_pc y u) <= B)%N) ->
    forall q t c l k x got z todo, y_pc y t = PLock c l k x got (z :: todo) -> N.to_nat (B - addr z) <= q -> moves y \/ stuck y.
  Proof.
    intros G HB. induction q as [|q IH]; intros t c l k x got z todo EP Hq;
      (destruct (search (fun u => u <> t /\ In z (held (y_pc y u)))) with (m := n) as [(u & Hu & NU & HZ)|FR];
       [intros u; destruct (Nat.eq_dec u t) as [->|NU]; [right; intros [X _]; congruence|]; destruct (in_dec Nat.eq_dec z (held (y_pc y u))) as [I|I]; [left; auto|right; intros [_ X]; auto]| |
        left; do 2 eexists; split; [|eapply st_page; [exact EP|]]; [discriminate|]; intros u NU HZ; exfalso; destruct (Nat.lt_ge_cases u n) as [L|L]; [apply (FR u L); auto|]; rewrite (g_out _ _ _ _ _ _ _ _ G u L) in HZ; exact HZ]);
      (destruct (y_pc y u) as [|c2|c2|c2|c2|c2|c2 l2 k2 x2 got2 [|z2 todo2]|c2 l2 k2 x2 r2|c2 k2 x2 todo2|c2|x2] eqn:PCu; try (cbn in HZ; contradiction); try (apply (can_act y a Sh m g u G); rewrite PCu; intros []; fail));
      (assert (LT : (addr z < addr z2)%N) by (cbn in HZ; pose proof (g_thr _ _ _ _ _ _ _ _ G u) as T; rewrite PCu in T; cbn in T; destruct T as (T & _); apply (sorted_split got2 z2 todo2); [rewrite T; apply (pages_sorted addr addr_inj)|exact HZ]));
      (assert (LB : (addr z2 <= B)%N) by (specialize (HB u Hu); rewrite PCu in HB; exact HB)).
    - exfalso. lia.
    - eapply IH; [exact PCu|lia].
  Qed.
  (** Whenever a call is running, some thread can take a step, or one has met that undefined behaviour. *)
  Theorem C57_no_deadlock tr (y : sys) t : run init tr y -> honest_calls tr -> y_pc y t <> PIdle -> moves y \/ stuck y.
  Proof.
    intros R H NI. destruct (inv_of tr y R H) as (a & Sh & m & g & G & _). destruct (want_bound (y_pc y) n) as (B & HB).
    assert (HOLD : forall u, main_of (y_pc y u) <> None -> moves y \/ stuck y).
    { intros u M. destruct (y_pc y u) as [|c2|c2|c2|c2|c2|c2 l2 k2 x2 got2 [|z2 todo2]|c2 l2 k2 x2 r2|c2 k2 x2 todo2|c2|x2] eqn:PCu; try (cbn in M; congruence); try (apply (can_act y a Sh m g u G); rewrite PCu; intros []; fail).
      eapply (lock_moves y a Sh m g B G HB); [exact PCu|reflexivity]. }
    destruct (search (fun u => main_of (y_pc y u) <> None)) with (m := n) as [(u & Hu & HM)|FR].
    { intros u. destruct (main_of (y_pc y u)); [left; discriminate|right; auto]. }
    { apply (HOLD u HM). }
    assert (FM : forall md, free_main y t md).
    { intros md u b NU HM. exfalso. destruct (Nat.lt_ge_cases u n) as [L|L]; [apply (FR u L); congruence|]. rewrite (g_out _ _ _ _ _ _ _ _ G u L) in HM. discriminate. }
    destruct (y_pc y t) as [|c2|c2|c2|c2|c2|c2 l2 k2 x2 got2 todo2|c2 l2 k2 x2 r2|c2 k2 x2 todo2|c2|x2] eqn:PCt; try congruence; try (apply (HOLD t); rewrite PCt; discriminate); try (apply (can_act y a Sh m g t G); rewrite PCt; intros []; fail).
    - left. do 2 eexists. split; [|eapply st_want; [exact PCt|apply FM]]. discriminate.
    - left. do 2 eexists. split; [|eapply st_main; [exact PCt|apply FM]]. discriminate.
  Qed.

  (** * A call alone *)
  (** What a call does when no other call runs: the ordered map of one thread (C13). *)
  Definition one_call (L : omap) (c : ccall S) : omap * loc S :=
    match c with
    | KProcess k p w s => let '(L', s') := o_process cmp L k p w s in (L', mkLoc s' 0 false)
    | KAppend k v d s => (match o_find cmp k L with Some (_, old) => o_put cmp k (old ++ d ++ v) L | None => o_put cmp k v L end, mkLoc s 0 false)
    | KMulti l w s => let '(L', s') := o_multi cmp L l w s in (L', mkLoc s' 0 false)
    | KFirst p w s => match L with [] => (L, mkLoc s 0 false) | (k, _) :: _ => let '(L', s') := o_process cmp L k p w s in (L', mkLoc s' 0 true) end
    | KEach p w noop s => let '(L', s') := o_each L p w (snd (on_empty p noop s)) in (L', mkLoc (snd (on_empty p noop s')) 0 false)
    | KCount s => (L, mkLoc s (Z.of_nat (length L)) false)
    | KClear s => ([], mkLoc s 0 false)
    end.
  Definition turns (h : list (nat * ccall S * loc S)) : list (ev S) := flat_map (fun '(t, c, x) => [ECall t c; ERet t x]) h.
  Inductive played : omap -> list (nat * ccall S * loc S) -> omap -> Prop :=
  | pl_nil L : played L [] L
  | pl_call L h L1 t c x : played L h L1 -> x = snd (one_call L1 c) -> played L (h ++ [(t, c, x)]) (fst (one_call L1 c)).

  Lemma each_app (l1 l2 : omap) (p : proc S) w : forall s l1' s1 l2' s2, o_each l1 p w s = (l1', s1) -> o_each l2 p w s1 = (l2', s2) -> o_each (l1 ++ l2) p w s = (l1' ++ l2', s2).
  Proof.
    induction l1 as [|[k v] r IH]; intros s l1' s1 l2' s2 E1 E2; cbn in *; [injection E1 as <- <-; exact E2|].
    destruct (on_full p k v s) as [a sa]. destruct (o_each r p w sa) as [r' sb] eqn:ER. injection E1 as <- <-. rewrite (IH _ _ _ _ _ ER E2). destruct w; [destruct a|]; reflexivity.
  Qed.
  Lemma each_keys (Q : bytes -> Prop) (p : proc S) w : forall (l : omap) s l' s', Forall (fun r => Q (fst r)) l -> o_each l p w s = (l', s') -> Forall (fun r => Q (fst r)) l'.
  Proof.
    induction l as [|[k v] r IH]; intros s l' s' F E; cbn in *; [injection E as <- <-; constructor|]. inversion F as [|? ? F1 F2]; subst.
    destruct (on_full p k v s) as [a sa]. destruct (o_each r p w sa) as [r' sb] eqn:ER. specialize (IH _ _ _ F2 ER). injection E as <- <-. destruct w; [destruct a|]; try constructor; auto.
  Qed.
  Lemma two_parts {A} (Q : A -> Prop) (a1 b1 a2 b2 : list A) : a1 ++ b1 = a2 ++ b2 -> Forall (fun r => ~ Q r) a1 -> Forall Q b1 -> Forall (fun r => ~ Q r) a2 -> Forall Q b2 -> a1 = a2 /\ b1 = b2.
  Proof.
    revert a2. induction a1 as [|x a1 IH]; intros a2 E H1 H2 H3 H4; destruct a2 as [|y a2]; cbn in E.
    - auto.
    - subst b1. inversion H2; subst. inversion H3; subst. contradiction.
    - subst b2. inversion H4; subst. inversion H1; subst. contradiction.
    - injection E as -> E. inversion H1; inversion H3; subst. destruct (IH a2 E) as [-> ->]; auto.
  Qed.
  Lemma not_lt k b : cmp k b <> Lt <-> cmp b k <> Gt. Proof. rewrite (cmp_opp k b). destruct (cmp k b); cbn; split; congruence. Qed.
  Lemma from_up lo b k : from cmp lo b -> ~ below cmp (Some b) k -> from cmp lo k.
  Proof. destruct lo as [l|]; cbn; [|auto]. rewrite !not_lt. intros H1 H2. eapply cmp_le_trans; [exact H1|exact H2]. Qed.
  Lemma from_down lo b k : from cmp lo b -> ~ from cmp lo k -> ~ from cmp (Some b) k.
  Proof. intros H1 H2 H3. apply H2. eapply from_up; eauto. Qed.

  Definition at_rest (a : @lsys S) : Prop := forall u, l_th a u = TIdle.
  Definition goes (t : nat) (c : ccall S) (L0 : omap) (a : @lsys S) : Prop :=
    (forall u, u <> t -> l_th a u = TIdle) /\
    match l_th a t with
    | TIdle => False
    | TCalled c' => c' = c /\ l_recs a = L0
    | TDone c' x => c' = c /\ (l_recs a, x) = one_call L0 c
    | TWalk c' lo x => c' = c /\
        match c with
        | KFirst p w s => l_recs a = L0 /\ x = mkLoc s 0 false /\ Forall (fun r => from cmp lo (fst r)) L0
        | KEach p w noop s => exists P P' R, L0 = P ++ R /\ l_recs a = P' ++ R /\ o_each P p w (snd (on_empty p noop s)) = (P', x_s x) /\ Forall (fun r => ~ from cmp lo (fst r)) P' /\ Forall (fun r => from cmp lo (fst r)) R
        | _ => False
        end
    end.
  Lemma th_same (f : nat -> @thr S) t (p : @thr S) : tupd f t p t = p. Proof. unfold tupd. now rewrite Nat.eqb_refl. Qed.
  Lemma th_other (f : nat -> @thr S) t (p : @thr S) u : u <> t -> tupd f t p u = f u. Proof. intros H. unfold tupd. now rewrite (proj2 (Nat.eqb_neq _ _) H). Qed.
  Lemma goes_at t c L0 (a a1 : @lsys S) t1 p L : goes t c L0 a -> l_th a t1 <> TIdle -> a1 = mkL L (tupd (l_th a) t1 p) -> t1 = t /\ (forall u, u <> t -> l_th a1 u = TIdle) /\ l_th a1 t = p /\ l_recs a1 = L.
  Proof.
    intros [G _] N ->. assert (t1 = t) by (destruct (Nat.eq_dec t1 t) as [|X]; [assumption|]; exfalso; apply N, G, X). subst t1. split; [reflexivity|]. cbn. split; [|split; [apply th_same|reflexivity]]. intros u Hu. rewrite th_other; auto.
  Qed.
  Lemma none_from lo L1 (R : omap) : Forall (fun r => from cmp lo (fst r)) (L1 ++ R) -> Forall (fun r => ~ from cmp lo (fst r)) L1 -> L1 = [].
  Proof. destruct L1 as [|x L1]; [reflexivity|]. intros F G. inversion F; inversion G; subst. contradiction. Qed.
  Lemma goes_step t c L0 a a1 : goes t c L0 a -> lstep cmp a ETau a1 -> goes t c L0 a1.
  Proof.
    intros G ST. pose proof G as [GO GT]. inversion ST; subst;
      match goal with E : l_th a ?t1 = _ |- goes t c L0 (mkL ?L (tupd _ _ ?p)) => destruct (goes_at t c L0 a _ t1 p L G ltac:(rewrite E; discriminate) eq_refl) as (-> & Q1 & Q2 & Q3); unfold goes; rewrite Q2, Q3; rewrite E in GT; split; [exact Q1|] end; destruct GT as [GC GT]; subst c; (split; [reflexivity|]);
      try match goal with E : range _ _ _ _ _ _ _ |- _ => rename E into RG end; try match goal with E : o_process _ _ _ _ _ _ = _ |- _ => rename E into OP | E : o_multi _ _ _ _ _ = _ |- _ => rename E into OP | E : _ -> _ = Z.of_nat _ |- _ => rename E into OP end.
    - cbn. rewrite <- GT. rewrite OP. reflexivity.
    - cbn. rewrite <- GT. reflexivity.
    - cbn. rewrite <- GT. rewrite OP. reflexivity.
    - split; [exact GT|]. split; [reflexivity|]. apply Forall_forall. cbn. auto.
    - exists [], [], L0. cbn. repeat split; auto. apply Forall_forall. auto.
    - destruct GT as (G1 & G2 & G3). rewrite G1 in *. split; [reflexivity|]. split; [exact G2|]. destruct RG as (R1 & R2 & _ & R4). rewrite R1 in *. cbn [app] in *. rewrite (none_from _ _ _ G3 R2) in *. exact R4.
    - destruct GT as (G1 & G2 & G3). destruct RG as (R1 & R2 & _ & R4). cbn [app] in R1. rewrite G1 in *. subst x. assert (L2 = []) as ->. { destruct L2 as [|r L2]; [reflexivity|]. inversion R4; subst. exfalso. cbn in *. auto. } rewrite app_nil_r in R1. subst L1. assert (L0 = []) as ->. { destruct L0 as [|r L0]; [reflexivity|]. inversion R2; inversion G3; subst. contradiction. } reflexivity.
    - destruct GT as (G1 & G2 & G3). destruct RG as (R1 & R2 & _ & _). rewrite G1 in *. subst x. rewrite R1 in G3. rewrite (none_from _ _ _ G3 R2) in R1. cbn in R1. cbn [one_call]. rewrite R1 in *. cbn [x_s] in *. rewrite OP. reflexivity.
    - destruct GT as (P & P' & R & G1 & G2 & G3 & G4 & G5). destruct RG as (R1 & R2 & R3 & R4).
      assert (F : Forall (fun r => from cmp lo (fst r)) (M ++ L2)). { apply Forall_app. split; [eapply Forall_impl; [|exact R3]; cbn; tauto|]. eapply Forall_impl; [|exact R4]. intros r. apply from_up. assumption. }
      rewrite R1 in G2. destruct (two_parts (fun r => from cmp lo (fst r)) _ _ _ _ G2 R2 F G4 G5) as [-> <-]. exists (P ++ M), (P' ++ M'), L2. rewrite <- !app_assoc. split; [exact G1|]. split; [reflexivity|]. split; [eapply each_app; eauto|].
      split; [|exact R4]. apply Forall_app. split; [eapply Forall_impl; [|exact G4]; intros r; apply from_down; assumption|].
      eapply (each_keys (fun k => ~ from cmp (Some b) k)); [|eassumption]. eapply Forall_impl; [|exact R3]. cbn. intros r [_ B] X. apply X, B.
    - destruct GT as (P & P' & R & G1 & G2 & G3 & G4 & G5). destruct RG as (R1 & R2 & R3 & _). rewrite app_nil_r in R1. rewrite R1 in G2.
      assert (F : Forall (fun r => from cmp lo (fst r)) M) by (eapply Forall_impl; [|exact R3]; cbn; tauto).
      destruct (two_parts (fun r => from cmp lo (fst r)) _ _ _ _ G2 R2 F G4 G5) as [-> <-]. cbn [one_call]. rewrite G1. erewrite each_app by eauto. reflexivity.
    - cbn. rewrite OP; [rewrite <- GT; reflexivity|]. intros u. destruct (Nat.eq_dec u t) as [->|N]; [match goal with E : l_th a t = _ |- _ => rewrite E end; reflexivity|rewrite GO; [reflexivity|exact N]].
    - reflexivity.
  Qed.
  Lemma lrun_snoc a tr e (a' : @lsys S) : lrun cmp a (tr ++ [e]) a' -> exists a1 a2, lrun cmp a tr a1 /\ lstep cmp a1 e a2 /\ lrun cmp a2 [] a'.
  Proof.
    intros R. remember (tr ++ [e]) as u eqn:EU. revert tr e EU. induction R as [a|a a1 u a2 R IH ST|a a1 u e1 a2 R IH NE ST]; intros tr e EU.
    - destruct tr; discriminate.
    - destruct (IH tr e EU) as (b1 & b2 & B1 & B2 & B3). exists b1, b2. split; [exact B1|]. split; [exact B2|]. eapply lrun_tau; eauto.
    - apply app_inj_tail in EU. destruct EU as [-> ->]. exists a1, a2. split; [exact R|]. split; [exact ST|]. constructor.
  Qed.
  Lemma rest_tau a (a1 : @lsys S) : at_rest a -> lstep cmp a ETau a1 -> False.
  Proof. intros Q ST. inversion ST; subst; match goal with E : l_th a _ = _ |- _ => rewrite Q in E; discriminate end. Qed.
  Lemma rest_run a (a1 : @lsys S) : at_rest a -> lrun cmp a [] a1 -> a1 = a.
  Proof. intros Q R. remember [] as u eqn:EU. revert EU Q. induction R as [a|a a1 u a2 R IH ST|a a1 u e1 a2 R IH NE ST]; intros EU Q; [reflexivity| |destruct u; discriminate]. rewrite (IH EU Q) in ST. exfalso. eapply rest_tau; eauto. Qed.
  Lemma goes_run t c L0 a (a1 : @lsys S) : goes t c L0 a -> lrun cmp a [] a1 -> goes t c L0 a1.
  Proof. intros Q R. remember [] as u eqn:EU. revert EU Q. induction R as [a|a a1 u a2 R IH ST|a a1 u e1 a2 R IH NE ST]; intros EU Q; [exact Q| |destruct u; discriminate]. eapply goes_step; [apply (IH EU Q)|exact ST]. Qed.
  Lemma turns_snoc h t c x : turns (h ++ [(t, c, x)]) = (turns h ++ [ECall t c]) ++ [ERet t x].
  Proof. unfold turns. rewrite flat_map_app. cbn. rewrite <- app_assoc. reflexivity. Qed.
  Lemma turns_played h : forall a, lrun cmp l_init (turns h) a -> at_rest a /\ played [] h (l_recs a).
  Proof.
    induction h as [|[[t c] x] h IH] using rev_ind; intros a R.
    - cbn in R. assert (Q : at_rest (@l_init S)) by (intros u; reflexivity). rewrite (rest_run _ _ Q R). split; [exact Q|constructor].
    - rewrite turns_snoc in R. destruct (lrun_snoc _ _ _ _ R) as (a1 & a2 & R1 & S1 & R2). destruct (lrun_snoc _ _ _ _ R1) as (b1 & b2 & R3 & S2 & R4). destruct (IH _ R3) as [Q PL].
      inversion S2; subst. assert (G : goes t c (l_recs b1) a1). { eapply goes_run; [|exact R4]. split; cbn [l_th l_recs]; [intros u Hu; rewrite th_other; auto|]. rewrite th_same. auto. }
      destruct G as [G1 G2]. inversion S1; subst. assert (Q2 : at_rest (mkL (l_recs a1) (tupd (l_th a1) t TIdle))). { intros u. cbn. destruct (Nat.eq_dec u t) as [->|N]; [apply th_same|rewrite th_other; auto]. }
      rewrite (rest_run _ _ Q2 R2). split; [exact Q2|]. cbn [l_recs]. match goal with E : l_th a1 t = TDone ?c0 x |- _ => rewrite E in G2; destruct G2 as [-> G2] end. 
      replace (l_recs a1) with (fst (one_call (l_recs b1) c)) by (rewrite <- G2; reflexivity). constructor; [exact PL|]. rewrite <- G2. reflexivity.
  Qed.
  (** If the calls of the threads do not overlap, each does and returns what the call of a single thread does and returns (C13), and the
      memory holds these records in between. *)
  Theorem C57_alone h (y : sys) : run init (turns h) y -> honest_calls (turns h) -> exists L, played [] h L /\ ((forall t, main_of (y_pc y t) = None) -> holds (y_s y) L).
  Proof. intros R H. destruct (C57_linearizable _ y R H) as (a & LR & _ & HO). exists (l_recs a). split; [apply (turns_played h a LR)|exact HO]. Qed.
End C57.
Print Assumptions C57_linearizable.
Print Assumptions C57_defined.
Print Assumptions C57_no_race.
Print Assumptions C57_writes.
Print Assumptions C57_reads.
Print Assumptions C57_no_deadlock.
Print Assumptions C57_alone.

(** * Executions by computation *)
Inductive move (S : Type) := MCall (t : nat) (c : ccall S) | MCheck (t : nat) (b : bool) | MWant (t : nat) | MMain (t : nat) | MPage (t : nat) | MAct (t : nat) | MRet (t : nat).
Arguments MCall {S}. Arguments MCheck {S}. Arguments MWant {S}. Arguments MMain {S}. Arguments MPage {S}. Arguments MAct {S}. Arguments MRet {S}.
Section Play.
  Variable cmp : bytes -> bytes -> comparison.
  Variable strict : bool.
  Variable choose : list (id * bytes) -> nat.
  Variable addr : id -> N.
  Variable n : nat.
  Context {S : Type}.
  Notation step := (step cmp baby_divide baby_merge baby_weight (baby_how strict) 256 20 choose addr n).
  Notation run := (run cmp baby_divide baby_merge baby_weight (baby_how strict) 256 20 choose addr n).
  Notation cact := (cact cmp baby_divide baby_merge baby_weight (baby_how strict) 256 20 choose addr).
  Definition isx (md : mode) : bool := match md with MX => true | MS => false end.
  Definition main_free (y : sys S) (t : nat) (md : mode) : bool :=
    forallb (fun u => Nat.eqb u t || match main_of (y_pc y u) with None => true | Some b => negb (isx md || isx b) end) (seq 0 n).
  Definition page_free (y : sys S) (t : nat) (z : id) (w : bool) : bool :=
    forallb (fun u => Nat.eqb u t || negb (existsb (Nat.eqb z) (pages_held addr (y_pc y u))) || negb (w || held_mode (y_pc y u))) (seq 0 n).
  Definition play1 (y : sys S) (mv : move S) : option (ev S * sys S) :=
    match mv with
    | MCall t c => match y_pc y t with PIdle => if (t <? n)%nat then Some (ECall t c, mkSys (y_s y) (upd (y_pc y) t (start c))) else None | _ => None end
    | MCheck t b => match y_pc y t with PCheck c => Some (ETau, mkSys (y_s y) (upd (y_pc y) t (if b then PMain c else PWant c))) | _ => None end
    | MWant t => match y_pc y t with PWant c => if main_free y t MX then Some (ETau, mkSys (y_s y) (upd (y_pc y) t (PReorg c))) else None | _ => None end
    | MMain t => match y_pc y t with PMain c => if main_free y t (if excl c then MX else MS) then Some (ETau, mkSys (y_s y) (upd (y_pc y) t (if excl c then PExcl c else PFind c))) else None | _ => None end
    | MPage t => match y_pc y t with PLock c l k x got (z :: todo) => if page_free y t z (page_mode c) then Some (ETau, mkSys (y_s y) (upd (y_pc y) t (PLock c l k x (got ++ [z]) todo))) else None | _ => None end
    | MAct t => match cact (y_s y) (y_pc y t) with Next s' p' => Some (ETau, mkSys s' (upd (y_pc y) t p')) | _ => None end
    | MRet t => match y_pc y t with PRet r => Some (ERet t r, mkSys (y_s y) (upd (y_pc y) t PIdle)) | _ => None end
    end.
  Fixpoint play (y : sys S) (l : list (move S)) : option (list (ev S) * sys S) :=
    match l with
    | [] => Some ([], y)
    | mv :: l => match play1 y mv with
                 | None => None
                 | Some (e, y') => match play y' l with None => None | Some (tr, y2) => Some (match e with ETau => tr | _ => e :: tr end, y2) end
                 end
    end.
  Lemma up_other (f : nat -> pc S) t (p : pc S) u : u <> t -> upd f t p u = f u. Proof. intros H. unfold upd. now rewrite (proj2 (Nat.eqb_neq _ _) H). Qed.
  Lemma play1_ok y mv e y' : (forall t, (n <= t)%nat -> y_pc y t = PIdle) -> play1 y mv = Some (e, y') ->
    step y e y' /\ (forall t, (n <= t)%nat -> y_pc y' t = PIdle).
  Proof.
    intros FI H.
    assert (UP : forall t p, (t < n)%nat -> forall u, (n <= u)%nat -> upd (y_pc y) t p u = PIdle) by (intros t p Ht u Hu; rewrite up_other by lia; auto).
    assert (LT : forall t, y_pc y t <> PIdle -> (t < n)%nat) by (intros t X; destruct (Nat.lt_ge_cases t n); [assumption|destruct X; auto]).
    assert (FO : forall (f : nat -> bool), forallb f (seq 0 n) = true -> forall u, (u < n)%nat -> f u = true) by (intros f X u Hu; rewrite forallb_forall in X; apply X; apply in_seq; lia).
    assert (MF : forall t md, main_free y t md = true -> free_main y t md).
    { intros t md T u b NE M. assert (Hu : (u < n)%nat) by (apply LT; intros X; rewrite X in M; discriminate M). pose proof (FO _ T u Hu) as X. cbn in X. rewrite M in X. apply Nat.eqb_neq in NE. rewrite NE in X. cbn in X. apply negb_true_iff, orb_false_iff in X. destruct X as [X1 X2]. destruct md, b; try discriminate; auto. }
    destruct mv as [t c|t b|t|t|t|t|t]; cbn [play1] in H.
    - destruct (y_pc y t) eqn:E; try discriminate. destruct (t <? n)%nat eqn:T; [|discriminate]. apply Nat.ltb_lt in T. injection H as <- <-. split; [constructor; auto|]. cbn. apply UP, T.
    - destruct (y_pc y t) eqn:E; try discriminate. injection H as <- <-. split; [eapply st_check; exact E|cbn; apply UP, LT; congruence].
    - destruct (y_pc y t) eqn:E; try discriminate. destruct (main_free y t MX) eqn:T; [|discriminate]. injection H as <- <-. split; [eapply st_want; [exact E|apply MF, T]|cbn; apply UP, LT; congruence].
    - destruct (y_pc y t) eqn:E; try discriminate. destruct (main_free y t _) eqn:T; [|discriminate]. injection H as <- <-. split; [eapply st_main; [exact E|apply MF, T]|cbn; apply UP, LT; congruence].
    - destruct (y_pc y t) as [|c|c|c|c|c|c l k x got [|z todo]|c l k x r|c k x todo|c|x] eqn:E; try discriminate. destruct (page_free y t z (page_mode c)) eqn:T; [|discriminate]. injection H as <- <-. split; [eapply st_page; [exact E|]|cbn; apply UP, LT; congruence]. intros u NE M.
      assert (Hu : (u < n)%nat) by (apply LT; intros X; rewrite X in M; destruct M). pose proof (FO _ T u Hu) as X. cbn in X. apply Nat.eqb_neq in NE. rewrite NE in X. assert (existsb (Nat.eqb z) (pages_held addr (y_pc y u)) = true) as Y by (apply existsb_exists; exists z; split; [exact M|apply Nat.eqb_refl]).
      rewrite Y in X. cbn in X. apply negb_true_iff, orb_false_iff in X. exact X.
    - destruct (cact (y_s y) (y_pc y t)) as [| |m' p'] eqn:E; try discriminate. injection H as <- <-. split; [eapply st_act; exact E|]. cbn. apply UP, LT. intros X. rewrite X in E. discriminate E.
    - destruct (y_pc y t) eqn:E; try discriminate. injection H as <- <-. split; [constructor; exact E|]. cbn. apply UP, LT. congruence.
  Qed.
  Lemma run_app (y : sys S) tr y1 tr2 y2 : run y1 tr2 y2 -> run y tr y1 -> run y (tr ++ tr2) y2.
  Proof.
    intros R2 R1. induction R2 as [y0|y0 y1 tr2 y2 R IH ST|y0 y1 tr2 e y2 R IH NE ST].
    - rewrite app_nil_r. exact R1.
    - eapply run_tau; eauto.
    - rewrite app_assoc. eapply run_ev; eauto.
  Qed.
  Lemma play_ok l : forall y tr y', (forall t, (n <= t)%nat -> y_pc y t = PIdle) -> play y l = Some (tr, y') -> run y tr y'.
  Proof.
    induction l as [|mv l IH]; intros y tr y' FI H; cbn in H; [injection H as <- <-; constructor|].
    destruct (play1 y mv) as [[e y1]|] eqn:E; [|discriminate]. destruct (play y1 l) as [[tr2 y2]|] eqn:E2; [|discriminate]. injection H as <- <-.
    destruct (play1_ok _ _ _ _ FI E) as [ST FI2]. specialize (IH _ _ _ FI2 E2). destruct e.
    - apply (run_app y [ECall t c] y1 tr2 y2 IH). apply (run_ev _ _ _ _ _ _ _ _ _ _ _ y y [] _ y1); [constructor|discriminate|exact ST].
    - apply (run_app y [ERet t x] y1 tr2 y2 IH). apply (run_ev _ _ _ _ _ _ _ _ _ _ _ y y [] _ y1); [constructor|discriminate|exact ST].
    - apply (run_app y [] y1 tr2 y2 IH). eapply run_tau; [constructor|exact ST].
  Qed.
End Play.

(** Keys in the order of their bytes; the processors note what they are shown, [None] for a missing record. *)
Definition shown := list (bytes * option bytes).
Definition at0 : list (id * bytes) -> nat := fun _ => 0.
Notation play2 l := (play bcmp true at0 N.of_nat 2 (@init shown) l).
Notation reach tr y := (run bcmp baby_divide baby_merge baby_weight (baby_how true) 256 20 at0 N.of_nat 2 (@init shown) tr y).
Lemma reach_ok l tr y : play2 l = Some (tr, y) -> reach tr y.
Proof. intros H. eapply play_ok; [|exact H]. reflexivity. Qed.
Definition p_set (v : bytes) : proc shown := mkProc (fun k o s => (ASet v, s ++ [(k, Some o)])) (fun k s => (ASet v, s ++ [(k, None)])).
Definition p_del : proc shown := mkProc (fun k o s => (ARemove, s ++ [(k, Some o)])) (fun k s => (ANoop, s ++ [(k, None)])).
Definition p_see : proc shown := mkProc (fun k o s => (ANoop, s ++ [(k, Some o)])) (fun k s => (ANoop, s ++ [(k, None)])).
Definition acts (t k : nat) : list (move shown) := repeat (MAct t) k.
Definition set_k (k v : bytes) := KProcess k (p_set v) true ([] : shown).
Definition get_k (k : bytes) := KProcess k p_see false ([] : shown).
(** A whole call of one thread: [pages] leaves to lock, [k] transitions after that; with or without a reorganization. *)
Definition whole (t : nat) (c : ccall shown) (pages k : nat) : list (move shown) :=
  MCall t c :: (if checks c then [MCheck t true] else []) ++ [MMain t; MAct t] ++ repeat (MPage t) pages ++ acts t k ++ [MRet t].
Definition tidy (t : nat) (c : ccall shown) (pages k : nat) : list (move shown) :=
  [MCall t c; MCheck t false; MWant t; MAct t; MMain t; MAct t] ++ repeat (MPage t) pages ++ acts t k ++ [MRet t].
(** 257 records, so that the leaf is divided by the next call. *)
Definition key (i : nat) : bytes := [N.of_nat (i / 16); N.of_nat (i mod 16)].
Definition fill := KMulti (map (fun i => (key i, p_set [1%N])) (seq 0 257)) true ([] : shown).
Definition filled : list (move shown) := whole 0 fill 1 260 ++ tidy 0 (set_k (key 300) [1%N]) 1 4.
Definition leaf_recs (y : sys shown) : res (list rec) := walk_leaves 10 (b_h (y_s y)) (b_first (y_s y)).
Definition leaf_sizes (y : sys shown) : list nat := flat_map (fun z => match b_h (y_s y) z with Some (Leaf _ _ rs) => [length rs] | _ => [] end) (seq 0 6).
Definition expect (f : bytes -> bytes) (ks : list nat) : res (list rec) := Ok (map (fun i => (key i, f (key i))) ks).
(** One thread after the other; the leaf has been divided by the second call. *)
Definition seen_all : shown := map (fun i => (key i, None)) (seq 0 257).
Example ex_calls : match play2 (filled ++ whole 1 (get_k (key 20)) 1 4) with
  | Some (tr, y) => tr = turns [(0%nat, fill, mkLoc seen_all 0%Z false); (0%nat, set_k (key 300) [1%N], mkLoc [(key 300, None)] 0%Z false); (1%nat, get_k (key 20), mkLoc [(key 20, Some [1%N])] 0%Z false)] /\
      leaf_recs y = expect (fun _ => [1%N]) (seq 0 257 ++ [300]) /\ leaf_sizes y = [128; 130] /\ b_level (y_s y) = 2%nat /\ y_pc y 0 = PIdle /\ y_pc y 1 = PIdle
  | None => False end.
Proof. vm_compute. repeat split. Qed.
(** Two calls for keys in different leaves at the same time: the second takes effect while the first holds its leaf. *)
Definition ka := key 3. Definition kb := key 250.
Example ex_interleaved : match play2 (filled ++ [MCall 0 (set_k ka [2%N]); MCheck 0 true; MMain 0; MAct 0; MPage 0] ++ whole 1 (set_k kb [3%N]) 1 4 ++ acts 0 4 ++ [MRet 0]) with
  | Some (tr, y) => skipn 4 tr = [ECall 0 (set_k ka [2%N]); ECall 1 (set_k kb [3%N]); ERet 1 (mkLoc [(kb, Some [1%N])] 0%Z false); ERet 0 (mkLoc [(ka, Some [1%N])] 0%Z false)] /\
      leaf_recs y = expect (fun k => if beqb k ka then [2%N] else if beqb k kb then [3%N] else [1%N]) (seq 0 257 ++ [300])
  | None => False end.
Proof. vm_compute. repeat split. Qed.
(** For keys of the same leaf the second has to wait, unless both read. *)
Example ex_waits : match play2 (filled ++ [MCall 0 (set_k ka [2%N]); MCheck 0 true; MMain 0; MAct 0; MPage 0; MCall 1 (get_k ka); MMain 1; MAct 1]) with
  | Some (_, y) => match play1 bcmp true at0 N.of_nat 2 y (MPage 1) with None => True | Some _ => False end | None => False end.
Proof. vm_compute. exact I. Qed.
Example ex_readers : match play2 (filled ++ [MCall 0 (get_k ka); MMain 0; MAct 0; MPage 0; MCall 1 (get_k ka); MMain 1; MAct 1; MPage 1]) with Some _ => True | None => False end.
Proof. vm_compute. exact I. Qed.
(** A reorganization has to wait for a call that reads. *)
Example ex_reorg_waits : match play2 (filled ++ [MCall 0 (get_k ka); MMain 0; MCall 1 (set_k kb [1%N]); MCheck 1 false]) with
  | Some (_, y) => match play1 bcmp true at0 N.of_nat 2 y (MWant 1) with None => True | Some _ => False end | None => False end.
Proof. vm_compute. exact I. Qed.
(** ProcessEach of one thread and a writer of another in between: the record set behind the iteration is not shown, the one set ahead is. *)
Definition each_see := KEach p_see false [] ([] : shown).
Example ex_each : match play2 (filled ++ [MCall 1 each_see; MMain 1; MAct 1; MPage 1] ++ acts 1 4 ++ whole 0 (set_k ka [5%N]) 1 4 ++ whole 0 (set_k kb [6%N]) 1 4 ++ [MPage 1] ++ acts 1 4 ++ [MRet 1]) with
  | Some (tr, y) => exists a, last tr ETau = ERet 1 a /\ x_s a = [([], None)] ++ map (fun i => (key i, Some (if beqb (key i) kb then [6%N] else [1%N]))) (seq 0 257 ++ [300]) ++ [([], None)]
  | None => False end.
Proof. vm_compute. eexists. split; reflexivity. Qed.

(** ProcessFirst without "writable" lets the processor write although it holds the leaf in shared mode: two threads write to the same
    records at the same time. *)
Definition pop := KFirst p_del false ([] : shown).
Definition two_pops : list (move shown) := whole 0 (set_k ka [1%N]) 1 4 ++ [MCall 0 pop; MMain 0; MAct 0; MPage 0; MCall 1 pop; MMain 1; MAct 1; MPage 1].
Theorem C57_first_refuted : exists tr y, reach tr y /\ race y.
Proof.
  destruct (play2 two_pops) as [[tr y]|] eqn:E; [|exfalso; vm_compute in E; discriminate E]. exists tr, y. split; [apply (reach_ok _ _ _ E)|].
  assert (P : match play2 two_pops with Some (_, y) => match y_pc y 0%nat, y_pc y 1%nat with PLock _ ((i, a) :: _) _ _ _ [], PLock _ ((j, b) :: _) _ _ _ [] => i = j /\ a = AFirst p_del /\ b = AFirst p_del | _, _ => False end | None => False end) by (vm_compute; auto).
  rewrite E in P. destruct (y_pc y 0%nat) as [|c|c|c|c|c|c [|[i a] l] k x got [|]|c l k x r|c k x todo|c|x] eqn:E0; try contradiction. destruct (y_pc y 1%nat) as [|c1|c1|c1|c1|c1|c1 [|[j b] l1] k1 x1 got1 [|]|c1 l1 k1 x1 r1|c1 k1 x1 todo1|c1|x1] eqn:E1; try contradiction. destruct P as (-> & -> & ->).
  exists 0%nat, 1%nat, (Records j), false. split; [discriminate|]. rewrite E0, E1. split; [|constructor]. apply ac_lock_w. cbn. exists [], [], []. discriminate.
Qed.
(** Count sees the middle of a ProcessMulti: 1, though the call adds two records to none. *)
Definition both := KMulti [([10%N], p_set [1%N]); ([20%N], p_set [2%N])] true ([] : shown).
Definition cnt := KCount ([] : shown).
Definition count_mid : list (move shown) := [MCall 0 both; MCheck 0 true; MMain 0; MAct 0; MPage 0; MAct 0] ++ whole 1 cnt 0 0 ++ acts 0 4 ++ [MRet 0].
Theorem C57_count_refuted : exists tr y, reach tr y /\
  tr = [ECall 0 both; ECall 1 cnt; ERet 1 (mkLoc [] 1 false); ERet 0 (mkLoc [([10], None); ([20], None)] 0 false)]%N /\
  x_n (snd (one_call bcmp [] cnt)) = 0%Z /\ x_n (snd (one_call bcmp (fst (one_call bcmp [] both)) cnt)) = 2%Z.
Proof.
  destruct (play2 count_mid) as [[tr y]|] eqn:E; [|exfalso; vm_compute in E; discriminate E]. exists tr, y. split; [apply (reach_ok _ _ _ E)|].
  assert (P : match play2 count_mid with Some (tr, y) => tr = [ECall 0 both; ECall 1 cnt; ERet 1 (mkLoc [] 1 false); ERet 0 (mkLoc [([10], None); ([20], None)] 0 false)]%N | None => False end) by (vm_compute; reflexivity).
  rewrite E in P. split; [exact P|]. vm_compute. auto.
Qed.
Print Assumptions C57_first_refuted.
Print Assumptions C57_count_refuted.
