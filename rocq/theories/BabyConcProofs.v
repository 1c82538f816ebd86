(** BabyDBM called by several threads: the invariant that ties the locks and the leaves to the specification. *)
From Coq Require Import List NArith ZArith Bool Lia Arith Permutation Sorting.Sorted.
Import ListNotations.
From Verif Require Import Bytes DbmModel OmapSpec OmapHist BtreeModel BtreeTree BtreeSort BtreeUp BtreeInv BtreeMerge BtreeOps BtreeRun BtreeHist BabyPages HashMutexModel BabyConcModel BabyConcSpec.

Section Proofs.
  Variable cmp : bytes -> bytes -> comparison.
  Hypothesis cmp_opp : forall a b, cmp b a = CompOpp (cmp a b).
  Hypothesis cmp_le_trans : forall a b c, cmp a b <> Gt -> cmp b c <> Gt -> cmp a c <> Gt.
  Variables divp mrgp : list rec -> bool.
  Variable weight : list rec -> N.
  Variable how : leafcf.
  Variables max_branches level_max : nat.
  Variable choose : list (id * bytes) -> nat.
  Hypothesis divp_two : forall rs, divp rs = true -> 2 <= length rs.
  Variable addr : id -> N.
  Hypothesis addr_inj : forall y z, addr y = addr z -> y = z.
  Context {S : Type}.
  Variable n : nat.
  Notation loc := (loc S). Notation act := (act S). Notation ccall := (ccall S). Notation pc := (pc S). Notation sys := (sys S). Notation thr := (@thr S). Notation lsys := (@lsys S).
  Notation inv := (inv cmp). Notation ss := (ss cmp). Notation routes := (routes cmp).
  Notation pages := (pages addr). Notation held := (pages_held addr).
  Notation cact := (cact cmp divp mrgp weight how max_branches level_max choose addr).
  Notation exec_act := (exec_act cmp divp mrgp how).

  (** * The leaves of a section *)
  Lemma ins_in y l z : In z (page_ins addr y l) <-> z = y \/ In z l.
  Proof.
    induction l as [|a l IH]; cbn; [intuition|]. destruct (addr y <? addr a)%N eqn:E1; [cbn; intuition|]. destruct (addr a <? addr y)%N eqn:E2; [cbn; rewrite IH; intuition|].
    apply N.ltb_ge in E1, E2. assert (y = a) by (apply addr_inj; lia). subst. cbn. intuition.
  Qed.
  Lemma ins_sorted y l : StronglySorted (fun a b => (addr a < addr b)%N) l -> StronglySorted (fun a b => (addr a < addr b)%N) (page_ins addr y l).
  Proof.
    intros H. induction H as [|a l H IH F]; cbn; [repeat constructor|]. destruct (N.ltb_spec (addr y) (addr a)); [|destruct (N.ltb_spec (addr a) (addr y)); [|constructor; auto]].
    - constructor; [constructor; auto|]. constructor; auto. eapply Forall_impl; [|exact F]. cbn. intros; lia.
    - constructor; auto. apply Forall_forall. intros z Hz. apply ins_in in Hz. destruct Hz as [->|Hz]; auto. rewrite Forall_forall in F. auto.
  Qed.
  Lemma fold_pages l : forall acc, (forall z, In z (fold_left (fun a (e : id * act) => page_ins addr (fst e) a) l acc) <-> In z acc \/ In z (map fst l)) /\
    (StronglySorted (fun a b => (addr a < addr b)%N) acc -> StronglySorted (fun a b => (addr a < addr b)%N) (fold_left (fun a (e : id * act) => page_ins addr (fst e) a) l acc)).
  Proof.
    induction l as [|[y a] l IH]; intros acc; cbn; [intuition|]. destruct (IH (page_ins addr y acc)) as [H1 H2]. split.
    - intros z. rewrite H1, ins_in. intuition.
    - intros H. apply H2, ins_sorted, H.
  Qed.
  Lemma in_pages (l : list (id * act)) z : In z (pages l) <-> In z (map fst l).
  Proof. unfold BabyConcModel.pages. rewrite (proj1 (fold_pages l [])). cbn. intuition. Qed.
  Lemma pages_sorted (l : list (id * act)) : StronglySorted (fun a b => (addr a < addr b)%N) (pages l).
  Proof. apply fold_pages. constructor. Qed.

  (** * What is done to a page *)
  Definition pact (a : act) (rs : list rec) (st : S) : list rec * S :=
    match a with
    | AProc k p w => o_process cmp rs k p w st
    | AAppend k v d => (fst (o_process cmp rs k (append_proc unit v d) true tt), st)
    | AFirst p => match rs with [] => (rs, st) | (k, _) :: _ => o_process cmp rs k p true st end
    | AAll p => keys_run cmp (map fst rs) rs p st
    | AShow p => (rs, show_all rs p st)
    end.
  Fixpoint runp (l : list (id * act)) (m : id -> list rec) (st : S) : (id -> list rec) * S :=
    match l with [] => (m, st) | (y, a) :: r => runp r (updm m y (fst (pact a (m y) st))) (snd (pact a (m y) st)) end.
  Lemma runp_local l : forall ps m m' st, (forall z, In z ps -> m z = m' z) -> incl (map fst l) ps ->
    snd (runp l m st) = snd (runp l m' st) /\ forall z, In z ps -> fst (runp l m st) z = fst (runp l m' st) z.
  Proof.
    induction l as [|[y a] l IH]; intros ps m m' st H I; cbn [runp]; [auto|]. assert (Hy : In y ps) by (apply I; left; reflexivity). rewrite (H y Hy). apply IH.
    - intros z Hz. unfold updm. destruct (Nat.eqb z y); auto.
    - intros z Hz. apply I. right. exact Hz.
  Qed.
  Lemma runp_ext l m m' st : (forall z, m z = m' z) -> snd (runp l m st) = snd (runp l m' st) /\ forall z, fst (runp l m st) z = fst (runp l m' st) z.
  Proof.
    intros H. split; [apply (runp_local l (map fst l)); auto; apply incl_refl|]. intros z. apply (runp_local l (z :: map fst l)); auto; [intros q Hq; right; exact Hq|left; reflexivity].
  Qed.
  Lemma runp_out l : forall m st z, ~ In z (map fst l) -> fst (runp l m st) z = m z.
  Proof. induction l as [|[y a] l IH]; intros m st z H; cbn [runp]; [reflexivity|]. rewrite IH by (intros I; apply H; right; exact I). apply updm_other. intros ->. apply H. left. reflexivity. Qed.
  Lemma runp_app l l' : forall m st, runp (l ++ l') m st = runp l' (fst (runp l m st)) (snd (runp l m st)).
  Proof. induction l as [|[y a] l IH]; intros m st; cbn [runp app]; [reflexivity|apply IH]. Qed.

  Definition noeff (a : act) : Prop := match a with AProc _ _ w => w = false | AAppend _ _ _ | AAll _ => False | AFirst p => reader p | AShow _ => True end.
  Lemma cmp_refl k : cmp k k = Eq. Proof. pose proof (cmp_opp k k) as H. destruct (cmp k k); cbn in H; congruence. Qed.
  Lemma pact_noeff a rs st : noeff a -> fst (pact a rs st) = rs.
  Proof.
    destruct a as [k p w|k v d|p|p|p]; cbn; intros H; try contradiction; auto.
    - subst. unfold o_process. destruct (o_call cmp rs k p st). reflexivity.
    - destruct rs as [|[k v] rs]; [reflexivity|]. unfold o_process, o_call. cbn [o_find]. rewrite cmp_refl. specialize (H k v st). destruct (on_full p k v st) as [a s1]. cbn in *. subst a. reflexivity.
  Qed.
  Definition aok (Sh : shape) (e : id * act) : Prop := In (fst e) (map snd Sh) /\
    match snd e with AProc k _ _ | AAppend k _ _ => routes (fill Sh (fun _ => [])) k (fst e) | _ => True end.

  Lemma inv_shape s E Sh m : inv s [] E -> E = fill Sh m -> NoDup (map snd Sh). Proof. intros H ->. pose proof (inv_nodup _ _ _ _ H) as N. rewrite fill_ids in N. exact N. Qed.
  Lemma heads_fill Sh m m' : hdsome (fill Sh m) -> hdsome (fill Sh m').
  Proof. unfold hdsome. destruct Sh as [|e Sh]; cbn; auto. intros H. rewrite Forall_forall in *. intros e0 H0. unfold fill in *. apply in_map_iff in H0. destruct H0 as (e1 & <- & H0). apply (H (e1, m (snd e1))). now apply (in_map (fun e => (e, m (snd e)))). Qed.

  (** ProcessImpl on the page of the key. *)
  Lemma impl_pure T hw s Sh m y k (p : proc T) w st : inv s [] (fill Sh m) -> routes (fill Sh m) k y ->
    match b_impl cmp divp mrgp hw s y k p w st with
    | Ok (s', st') => inv s' [] (fill Sh (updm m y (fst (o_process cmp (m y) k p w st)))) /\ st' = snd (o_process cmp (m y) k p w st)
    | Ub e => e = EmptyFront /\ h_strict hw = true
    end.
  Proof.
    intros H R. pose proof (inv_shape _ _ _ _ H eq_refl) as N. pose proof (inv_ss _ _ _ _ H) as Hs. pose proof (inv_hdsome _ _ _ _ H) as Hd.
    assert (Hy : In y (map snd Sh)). { destruct R as (A & lo & rs & B & E & _). rewrite <- (fill_ids Sh m), E, map_app. apply in_or_app. right. left. reflexivity. }
    destruct (shape_at _ _ Hy) as (A & lo & B & ->). pose proof (routes_mid cmp _ _ _ _ _ _ N R) as R0.
    pose proof (page_process cmp cmp_opp cmp_le_trans A lo y B m k N Hs Hd R T p w st) as PP. pose proof H as H0. rewrite fill_at in H0.
    destruct (b_impl_ok cmp cmp_opp cmp_le_trans divp mrgp weight hw divp_two T s [] _ lo y (m y) _ k p w st H0 R0) as [(_ & _ & _ & Rs & R1)|(s' & rs' & R1 & R2 & R3 & R4 & R5)]; rewrite R1; auto.
    rewrite <- fill_at in *. rewrite PP in *. cbn [fst snd] in *. split; [|reflexivity]. rewrite (fill_mid _ _ _ _ _ _ N) in R3 |- *. rewrite !recs_mid in R3. apply app_inv_head, app_inv_tail in R3. subst rs'. exact R2.
  Qed.
  Lemma append_as s y k v d : append_impl cmp divp s y k v d = match b_impl cmp divp mrgp (mkHow false false) s y k (append_proc unit v d) true tt with Ok (s', _) => Ok s' | Ub e => Ub e end.
  Proof.
    unfold append_impl, b_impl. destruct (leaf_at (b_h s) y) as [[[p nx] rs]|e]; cbn [bind]; [|reflexivity]. destruct (lower cmp k rs) as [l1 l2].
    destruct l2 as [|[k1 v1] r]; cbn [on_full on_empty append_proc].
    - destruct (divp (l1 ++ [(k, v)])); [|reflexivity]. destruct (note _ y _); reflexivity.
    - destruct (ltb cmp k k1); [|reflexivity]. destruct (divp (l1 ++ (k, v) :: (k1, v1) :: r)); [|reflexivity]. destruct (note _ y _); reflexivity.
  Qed.
  Lemma leaf_of s Sh m y : inv s [] (fill Sh m) -> In y (map snd Sh) -> exists A lo B p, Sh = A ++ (lo, y) :: B /\ leaf_at (b_h s) y = Ok (p, match B with [] => None | e :: _ => Some (snd e) end, m y).
  Proof.
    intros H Hy. destruct (shape_at _ _ Hy) as (A & lo & B & ->). pose proof (inv_chain _ _ _ _ H) as C. rewrite fill_at in C. exists A, lo, B. eexists. split; [reflexivity|]. rewrite (chain_at _ _ _ _ _ _ C). destruct B as [|[? ?] B]; reflexivity.
  Qed.
  Lemma keys_runp (p : proc S) y r keys : forall m rs st, m y = rs -> let q := runp (map (fun k => (y, AProc k p true)) keys ++ r) m st in let q' := runp r (updm m y (fst (keys_run cmp keys rs p st))) (snd (keys_run cmp keys rs p st)) in
    snd q' = snd q /\ forall z, fst q' z = fst q z.
  Proof.
    induction keys as [|k keys IH]; intros m rs st E; cbn [map app runp keys_run fst snd pact].
    - apply runp_ext. intros z. unfold updm. destruct (Nat.eqb_spec z y) as [->|]; auto.
    - rewrite E. destruct (o_process cmp rs k p true st) as [rs1 st1] eqn:EP. cbn [fst snd]. destruct (IH (updm m y rs1) rs1 st1 (updm_same _ _ _)) as [I1 I2].
      assert (X : forall z, updm m y (fst (keys_run cmp keys rs1 p st1)) z = updm (updm m y rs1) y (fst (keys_run cmp keys rs1 p st1)) z) by (intros z; unfold updm; destruct (Nat.eqb z y); auto).
      destruct (runp_ext r _ _ (snd (keys_run cmp keys rs1 p st1)) X) as [X1 X2]. split; [rewrite X1; exact I1|intros z; rewrite X2; apply I2].
  Qed.

  Definition isproc (a : act) : Prop := exists k p w, a = AProc k p w.
  Lemma exec_ok s Sh m y a x : inv s [] (fill Sh m) -> aok Sh (y, a) ->
    match exec_act s y a x with
    | Ok (s', x', more) => exists m', inv s' [] (fill Sh m') /\ (forall z, z <> y -> m' z = m z) /\ (noeff a -> m' y = m y) /\ Forall (aok Sh) more /\
        Forall (fun e => fst e = y /\ isproc (snd e)) more /\ (more <> [] -> exists p, a = AAll p) /\ x_n x' = x_n x /\
        x_hit x' = (match a with AFirst _ => match m y with [] => x_hit x | _ => true end | _ => x_hit x end) /\
        forall r, snd (runp ((y, a) :: r) m (x_s x)) = snd (runp (more ++ r) m' (x_s x')) /\ forall z, fst (runp ((y, a) :: r) m (x_s x)) z = fst (runp (more ++ r) m' (x_s x')) z
    | Ub e => e = EmptyFront /\ h_strict how = true
    end.
  Proof.
    intros H [Hy AO]. cbn [fst snd] in *. destruct (leaf_of _ _ _ _ H Hy) as (A & lo & B & pv & ESh & EL).
    assert (OUT : forall rs z, z <> y -> updm m y rs z = m z) by (intros; now apply updm_other).
    assert (KEEP : forall rs, rs = m y -> inv s [] (fill Sh m) -> inv s [] (fill Sh (updm m y rs))).
    { intros rs -> I. erewrite fill_ext; [exact I|]. intros z _. unfold updm. destruct (Nat.eqb_spec z y) as [->|]; auto. }
    destruct a as [k p w|k v d|p|p|p]; cbn [BabyConcModel.exec_act].
    - pose proof (impl_pure S how s Sh m y k p w (x_s x) H (routes_fill cmp _ _ _ _ m AO)) as W. destruct (b_impl _ _ _ _ s y k p w (x_s x)) as [[s' st']|e]; cbn [bind]; [|exact W]. destruct W as [W1 ->].
      exists (updm m y (fst (o_process cmp (m y) k p w (x_s x)))). split; [exact W1|]. split; [apply OUT|]. split; [intros NE; rewrite updm_same; apply (pact_noeff (AProc k p w)); exact NE|]. repeat split; auto; try congruence.
    - rewrite append_as. pose proof (impl_pure unit (mkHow false false) s Sh m y k (append_proc unit v d) true tt H (routes_fill cmp _ _ _ _ m AO)) as W. destruct (b_impl _ _ _ _ s y k _ true tt) as [[s' st']|e]; cbn [bind]; [|destruct W as [_ W]; discriminate].
      destruct W as [W1 _]. exists (updm m y (fst (o_process cmp (m y) k (append_proc unit v d) true tt))). split; [exact W1|]. split; [apply OUT|]. split; [intros []|]. repeat split; auto; try congruence.
    - rewrite EL. cbn [bind]. destruct (m y) as [|[k v] rs] eqn:EM.
      + exists m. split; [exact H|]. repeat split; auto; try congruence; cbn [runp pact app]; rewrite EM; cbn [fst snd]; apply runp_ext; intros z; unfold updm; destruct (Nat.eqb_spec z y) as [->|]; auto.
      + assert (R : routes (fill Sh m) k y). { rewrite ESh, fill_at, EM. exists (fill A m), lo, ((k, v) :: rs), (fill B m). split; [reflexivity|]. pose proof (inv_ss _ _ _ _ H) as Hs. rewrite ESh, fill_at, EM in Hs. eapply routes_rec; [exact Hs|left; reflexivity]. }
        pose proof (impl_pure S how s Sh m y k p true (x_s x) H R) as W. rewrite EM in W. destruct (b_impl _ _ _ _ s y k p true (x_s x)) as [[s' st']|e]; cbn [bind]; [|exact W]. destruct W as [W1 ->].
        eexists. split; [exact W1|]. split; [apply OUT|]. split; [intros NE; rewrite updm_same; apply (pact_noeff (AFirst p) ((k, v) :: rs)); exact NE|]. repeat split; auto; try congruence; cbn [runp pact app fst snd x_s]; rewrite EM; reflexivity.
    - rewrite EL. cbn [bind]. exists m. split; [exact H|]. split; [auto|]. split; [auto|]. split; [|split; [|split; [eauto|split; [reflexivity|split; [reflexivity|]]]]].
      + apply Forall_forall. intros e He. apply in_map_iff in He. destruct He as ([k v] & <- & He). split; [exact Hy|]. cbn [fst snd]. apply (routes_fill cmp _ _ _ m). rewrite ESh, fill_at. exists (fill A m), lo, (m y), (fill B m). split; [reflexivity|]. eapply routes_rec; [|exact He]. pose proof (inv_ss _ _ _ _ H) as Hs. rewrite ESh, fill_at in Hs. exact Hs.
      + apply Forall_forall. intros e He. apply in_map_iff in He. destruct He as ([k v] & <- & He). split; [reflexivity|]. cbn. unfold isproc. eauto.
      + intros r. rewrite <- (map_map fst (fun k => (y, AProc k p true))). cbn [runp pact]. destruct (keys_runp p y r (map fst (m y)) m (m y) (x_s x) eq_refl) as [K1 K2]. split; [exact K1|exact K2].
    - rewrite EL. cbn [bind]. exists m. split; [exact H|]. repeat split; auto; try congruence; cbn [runp pact app fst snd x_s]; apply runp_ext; intros z; unfold updm; destruct (Nat.eqb_spec z y) as [->|]; auto.
  Qed.

  (** * The pages of the specification *)
  Lemma keys_ss (p : proc S) Sh y keys : forall g st, NoDup (map snd Sh) -> ss (fill Sh g) -> hdsome (fill Sh g) -> In y (map snd Sh) -> Forall (fun k => routes (fill Sh g) k y) keys ->
    ss (fill Sh (updm g y (fst (keys_run cmp keys (g y) p st)))).
  Proof.
    induction keys as [|k keys IH]; intros g st N Hs Hd Hy F; cbn [keys_run].
    - erewrite fill_ext; [exact Hs|]. intros z _. cbn. unfold updm. destruct (Nat.eqb_spec z y) as [->|]; auto.
    - inversion F as [|? ? F1 F2]; subst. destruct (shape_at _ _ Hy) as (A & lo & B & ->). pose proof (page_ss cmp cmp_opp cmp_le_trans A lo y B g k N Hs Hd F1 S p true st) as P1.
      destruct (o_process cmp (g y) k p true st) as [rs1 st1]. cbn [fst] in P1. specialize (IH (updm g y rs1) st1 N P1 (heads_fill _ _ _ Hd) Hy).
      rewrite updm_same in IH. erewrite fill_ext; [apply IH|].
      + eapply Forall_impl; [|exact F2]. cbn. intros q Hq. eapply routes_fill. exact Hq.
      + intros z _. unfold updm. destruct (Nat.eqb z y); reflexivity.
  Qed.
  Lemma pact_ss Sh g y a st : NoDup (map snd Sh) -> ss (fill Sh g) -> hdsome (fill Sh g) -> aok Sh (y, a) -> ss (fill Sh (updm g y (fst (pact a (g y) st)))).
  Proof.
    intros N Hs Hd [Hy AO]. cbn [fst snd] in *. destruct (shape_at _ _ Hy) as (A & lo & B & ESh).
    assert (SAME : ss (fill Sh (updm g y (g y)))) by (erewrite fill_ext; [exact Hs|]; intros z _; unfold updm; destruct (Nat.eqb_spec z y) as [->|]; auto).
    assert (RT : forall k v, In (k, v) (g y) -> routes (fill Sh g) k y). { intros k v I. rewrite ESh, fill_at. exists (fill A g), lo, (g y), (fill B g). split; [reflexivity|]. eapply routes_rec; [|exact I]. rewrite ESh, fill_at in Hs. exact Hs. }
    destruct a as [k p w|k v d|p|p|p]; cbn [pact fst].
    - subst Sh. apply page_ss; auto. eapply routes_fill. exact AO.
    - subst Sh. apply page_ss; auto. eapply routes_fill. exact AO.
    - destruct (g y) as [|[k v] rs] eqn:EG; [exact SAME|]. subst Sh. rewrite <- EG. apply page_ss; auto. apply (RT k v). left. reflexivity.
    - apply keys_ss; auto. apply Forall_forall. intros k Hk. apply in_map_iff in Hk. destruct Hk as ([k1 v] & <- & Hk). eapply RT. exact Hk.
    - exact SAME.
  Qed.
  Lemma runp_ss l : forall Sh g st, NoDup (map snd Sh) -> ss (fill Sh g) -> hdsome (fill Sh g) -> Forall (aok Sh) l -> ss (fill Sh (fst (runp l g st))).
  Proof.
    induction l as [|[y a] l IH]; intros Sh g st N Hs Hd F; cbn [runp]; [exact Hs|]. inversion F; subst. apply IH; auto; [apply pact_ss; auto|eapply heads_fill; exact Hd].
  Qed.
  Lemma multi_ok w l : forall Sh g ys st, NoDup (map snd Sh) -> ss (fill Sh g) -> hdsome (fill Sh g) -> Forall2 (fun k y => routes (fill Sh (fun _ => [])) k y) (map fst l) ys ->
    o_multi cmp (recs (fill Sh g)) l w st = (recs (fill Sh (fst (runp (sec_of l w ys) g st))), snd (runp (sec_of l w ys) g st)).
  Proof.
    induction l as [|[k p] l IH]; intros Sh g ys st N Hs Hd F; cbn [map fst] in F; inversion F as [|? y ? ys' F1 F2]; subst; unfold sec_of; cbn [combine map o_multi runp fst snd]; [reflexivity|].
    assert (Hy : In y (map snd Sh)). { destruct F1 as (A & lo & rs & B & E & _). rewrite <- (fill_ids Sh (fun _ => [])), E, map_app. apply in_or_app. right. left. reflexivity. }
    destruct (shape_at _ _ Hy) as (A & lo & B & ESh). pose proof (routes_fill cmp _ _ _ _ g F1) as R. rewrite ESh in *.
    rewrite (page_process cmp cmp_opp cmp_le_trans A lo y B g k N Hs Hd R). cbn [pact]. pose proof (page_ss cmp cmp_opp cmp_le_trans A lo y B g k N Hs Hd R S p w st) as P1.
    destruct (o_process cmp (g y) k p w st) as [rs1 st1]. cbn [fst snd] in *. apply IH; auto. eapply heads_fill; exact Hd.
  Qed.

  Definition hi_of (B : shape) : option bytes := match B with [] => None | e :: _ => fst e end.
  Lemma range_ok A lo y B g : ss (fill (A ++ (lo, y) :: B) g) -> hdsome (fill (A ++ (lo, y) :: B) g) ->
    range cmp (recs (fill (A ++ (lo, y) :: B) g)) lo (hi_of B) (recs (fill A g)) (g y) (recs (fill B g)).
  Proof.
    intros Hs Hd. rewrite fill_at in *. split; [apply recs_mid|]. unfold BtreeSort.ss in Hs. rewrite marks_app, marks_cons in Hs. cbn [elo ers fst snd] in Hs.
    apply SS_app in Hs. destruct Hs as (_ & Hs & X1). apply SS_app in Hs. destruct Hs as (_ & Hs & X2). apply SS_app in Hs. destruct Hs as (_ & HB & X3).
    assert (IR : forall r, In r (g y) -> In (MR (fst r)) (mrs (g y))) by (intros r Hr; apply in_mrs; eauto).
    assert (HI : forall e B', B = e :: B' -> exists b, fst e = Some b /\ In (BtreeSort.MS b) (marks (fill B g))).
    { intros [o z] B' ->. pose proof (hdsome_at _ _ _ Hd) as F. cbn [fill map] in F. inversion F; subst. cbn in H1. destruct o as [b|]; [|congruence]. exists b. split; [reflexivity|]. apply in_marks_sep. eexists. split; [left; reflexivity|reflexivity]. }
    split; [|split].
    - apply Forall_forall. intros [k v] Hr. cbn [fst]. destruct A as [|e A]; [destruct Hr|]. assert (LO : lo <> None). { unfold hdsome in Hd. cbn in Hd. apply Forall_app in Hd. destruct Hd as [_ Hd]. inversion Hd; auto. }
      destruct lo as [a|]; [|congruence]. cbn. intros NL. apply NL. assert (M1 : In (MR k) (marks (fill (e :: A) g))) by (apply in_marks_rec; eauto). specialize (X1 (MR k) (BtreeSort.MS a) M1 (or_introl eq_refl)). exact X1.
    - apply Forall_forall. intros r Hr. split.
      + destruct lo as [a|]; [|exact I]. cbn. intros L. specialize (X2 (BtreeSort.MS a) (MR (fst r)) (or_introl eq_refl) (in_or_app _ _ _ (or_introl (IR r Hr)))). cbn in X2. unfold kle in X2. apply X2. rewrite cmp_opp, L. reflexivity.
      + destruct B as [|e B'] eqn:EB; [exact I|]. destruct (HI e B' eq_refl) as (b & Eb & Ib). cbn. rewrite Eb. cbn. specialize (X3 (MR (fst r)) (BtreeSort.MS b) (IR r Hr) Ib). exact X3.
    - apply Forall_forall. intros [k v] Hr. destruct B as [|e B'] eqn:EB; [destruct Hr|]. destruct (HI e B' eq_refl) as (b & Eb & Ib). cbn. rewrite Eb. cbn. intros L.
      assert (M1 : In (MR k) (marks (fill (e :: B') g))) by (apply in_marks_rec; eauto). destruct e as [o z]. cbn in Eb. subst o. cbn [fill map marks flat_map] in M1, HB. unfold marks1 in HB, M1. cbn [elo fst snd sep1 app] in HB, M1. inversion HB as [|? ? _ F]; subst. destruct M1 as [M1|M1]; [discriminate|].
      rewrite Forall_forall in F. specialize (F _ M1). cbn in F. unfold kle in F. apply F. rewrite cmp_opp, L. reflexivity.
  Qed.
  Lemma from_ok A lo y B g b : ss (fill (A ++ (lo, y) :: B) g) -> hi_of B = Some b -> from cmp lo b.
  Proof.
    intros Hs E. rewrite fill_at in Hs. destruct lo as [a|]; [|exact I]. unfold BtreeSort.ss in Hs. rewrite marks_app, marks_cons in Hs. apply SS_app in Hs. destruct Hs as (_ & Hs & _). cbn in Hs. inversion Hs as [|? ? _ F]; subst. rewrite Forall_forall in F.
    cbn. intros L. destruct B as [|[o z] B]; [discriminate|]. cbn in E. subst o. specialize (F (BtreeSort.MS b)). assert (I1 : In (BtreeSort.MS b) (mrs (g y) ++ marks (fill ((Some b, z) :: B) g))) by (apply in_or_app; right; left; reflexivity).
    specialize (F I1). cbn in F. unfold klt in F. rewrite cmp_opp, L in F. discriminate.
  Qed.
  (** * The invariant *)
  Definition xfin (r : list (id * act)) (m : id -> list rec) (x : loc) : loc := mkLoc (snd (runp r m (x_s x))) (x_n x) (x_hit x).
  Definition fit (c : ccall) (e : id * act) : Prop := page_mode c = false -> noeff (snd e).
  (** The thread of the specification once the section is over. *)
  Definition after (Sh : shape) (c : ccall) (k : cont) (xf : loc) (tau : thr) : Prop :=
    match k with
    | CRet => tau = TDone c xf
    | CWalk y => exists A lo B a, Sh = A ++ (lo, y) :: B /\ walk_act c = Some a /\ x_n xf = 0%Z /\
        if x_hit xf then tau = TDone c xf else match B with [] => tau = TDone c (call_empty c xf) | e :: _ => tau = TWalk c (fst e) xf end
    end.
  Definition before (Sh : shape) (c : ccall) (l : list (id * act)) (k : cont) (x : loc) (tau : thr) : Prop :=
    match k with
    | CRet => tau = TCalled c /\ x = loc0 c /\
        match c with
        | KProcess k p w _ => exists y, l = [(y, AProc k p w)]
        | KAppend k v d _ => exists y, l = [(y, AAppend k v d)]
        | KMulti kl w _ => exists ys, Forall2 (fun k y => routes (fill Sh (fun _ => [])) k y) (map fst kl) ys /\ l = sec_of kl w ys
        | _ => False
        end
    | CWalk y => exists A lo B a, Sh = A ++ (lo, y) :: B /\ walk_act c = Some a /\ l = [(y, a)] /\ x_n x = 0%Z /\ x_hit x = false /\ tau = TWalk c lo x
    end.
  Definition trel (Sh : shape) (m g : id -> list rec) (p : pc) (tau : thr) : Prop :=
    match p with
    | PIdle => tau = TIdle
    | PCheck c | PWant c | PReorg c | PMain c => tau = TCalled c
    | PFind c => tau = TCalled c /\ excl c = false
    | PExcl c => tau = TCalled c /\ excl c = true
    | PLock c l k x got todo => got ++ todo = pages l /\ Forall (aok Sh) l /\ Forall (fit c) l /\ before Sh c l k x tau
    | PBody c l k x r => after Sh c k (xfin r m x) tau /\ Forall (aok Sh) r /\ Forall (fun e => isproc (snd e)) r /\ Forall (fit c) r /\ incl (map fst r) (pages l) /\
        (forall z, In z (pages l) -> fst (runp r m (x_s x)) z = g z) /\ (page_mode c = true -> several c = false -> r = [])
    | PUn c k x _ => after Sh c k x tau
    | PRet x => exists c, tau = TDone c x
    end.
  Definition hon (p : pc) : Prop :=
    match p with PIdle | PRet _ => True | PCheck c | PWant c | PReorg c | PMain c | PFind c | PExcl c | PLock c _ _ _ _ _ | PBody c _ _ _ _ | PUn c _ _ _ => honest c end.
  Definition openx (p : pc) (z : id) : Prop := match p with PBody c l _ _ _ => page_mode c = true /\ In z (pages l) | _ => False end.
  Record ginv (y : sys) (a : lsys) (Sh : shape) (m g : id -> list rec) : Prop := mkG {
    g_inv : inv (y_s y) [] (fill Sh m);
    g_ss : ss (fill Sh g);
    g_recs : recs (fill Sh g) = l_recs a;
    g_agree : forall z, In z (map snd Sh) -> (forall t, ~ openx (y_pc y t) z) -> m z = g z;
    g_main : forall t u, t <> u -> main_of (y_pc y t) = Some MX -> main_of (y_pc y u) = None;
    g_held : forall t u z, t <> u -> In z (held (y_pc y t)) -> In z (held (y_pc y u)) -> held_mode (y_pc y t) = false /\ held_mode (y_pc y u) = false;
    g_out : forall t, n <= t -> y_pc y t = PIdle;
    g_hon : forall t, hon (y_pc y t);
    g_thr : forall t, trel Sh m g (y_pc y t) (l_th a t) }.

  Lemma upd_same (f : nat -> pc) t p : upd f t p t = p. Proof. unfold upd. now rewrite Nat.eqb_refl. Qed.
  Lemma upd_other (f : nat -> pc) t p u : u <> t -> upd f t p u = f u. Proof. intros H. unfold upd. now rewrite (proj2 (Nat.eqb_neq _ _) H). Qed.
  Lemma tupd_same (f : nat -> thr) t p : tupd f t p t = p. Proof. unfold tupd. now rewrite Nat.eqb_refl. Qed.
  Lemma tupd_other (f : nat -> thr) t p u : u <> t -> tupd f t p u = f u. Proof. intros H. unfold tupd. now rewrite (proj2 (Nat.eqb_neq _ _) H). Qed.

  Lemma g_nodup y a Sh m g : ginv y a Sh m g -> NoDup (map snd Sh). Proof. intros G. exact (inv_shape _ _ _ _ (g_inv _ _ _ _ _ G) eq_refl). Qed.
  Lemma g_heads y a Sh m g m' : ginv y a Sh m g -> hdsome (fill Sh m'). Proof. intros G. eapply heads_fill. exact (inv_hdsome _ _ _ _ (g_inv _ _ _ _ _ G)). Qed.
  Lemma trel_frame Sh m g m' g' p tau : (forall z, In z (held p) -> m' z = m z /\ g' z = g z) -> trel Sh m g p tau -> trel Sh m' g' p tau.
  Proof.
    intros H T. destruct p; try exact T. cbn [trel pages_held] in *. destruct T as (T1 & T2 & T3 & T4 & T5 & T6 & T7).
    destruct (runp_local r (pages l) m m' (x_s x)) as [L1 L2]; [intros z Hz; symmetry; apply H, Hz|exact T5|]. split; [unfold xfin in *; rewrite <- L1; exact T1|]. repeat (split; [assumption|]). split; [|exact T7].
    intros z Hz. rewrite <- (L2 z Hz). destruct (H z Hz) as [_ ->]. apply T6, Hz.
  Qed.

  Lemma move y a Sh m g t s' p' m' g' a' : ginv y a Sh m g -> (t < n \/ y_pc y t <> PIdle) ->
    inv s' [] (fill Sh m') -> ss (fill Sh g') -> recs (fill Sh g') = l_recs a' ->
    (forall u z, u <> t -> In z (held (y_pc y u)) -> m' z = m z /\ g' z = g z) ->
    (forall z, In z (map snd Sh) -> (forall u, u <> t -> ~ openx (y_pc y u) z) -> ~ openx p' z -> m' z = g' z) ->
    (forall u, u <> t -> (main_of p' = Some MX -> main_of (y_pc y u) = None) /\ (main_of (y_pc y u) = Some MX -> main_of p' = None)) ->
    (forall u z, u <> t -> In z (held p') -> In z (held (y_pc y u)) -> held_mode p' = false /\ held_mode (y_pc y u) = false) ->
    hon p' -> trel Sh m' g' p' (l_th a' t) -> (forall u, u <> t -> l_th a' u = l_th a u) ->
    ginv (mkSys s' (upd (y_pc y) t p')) a' Sh m' g'.
  Proof.
    intros G AL I1 I2 I3 FR AG MA HE HO TR TH. destruct G as [G1 G2 G3 G4 G5 G6 G7 G8 G9]. constructor; cbn [y_s y_pc]; auto.
    - intros z Hz H. apply AG; auto. + intros u NU O. apply (H u). rewrite upd_other by exact NU. exact O. + intros O. apply (H t). rewrite upd_same. exact O.
    - intros u v NE. destruct (Nat.eq_dec u t) as [->|NU]; destruct (Nat.eq_dec v t) as [->|NV]; try congruence; rewrite ?upd_same, ?(upd_other _ _ _ _ NU), ?(upd_other _ _ _ _ NV).
      + apply MA, NV. + apply MA, NU. + apply G5, NE.
    - intros u v z NE. destruct (Nat.eq_dec u t) as [->|NU]; destruct (Nat.eq_dec v t) as [->|NV]; try congruence; rewrite ?upd_same, ?(upd_other _ _ _ _ NU), ?(upd_other _ _ _ _ NV); intros H1 H2.
      + apply (HE v z); auto. + destruct (HE u z); auto. + apply (G6 u v z); auto.
    - intros u Hu. rewrite upd_other; [apply G7, Hu|]. intros ->. destruct AL as [AL|AL]; [lia|]. apply AL, G7, Hu.
    - intros u. destruct (Nat.eq_dec u t) as [->|NU]; rewrite ?upd_same, ?(upd_other _ _ _ _ NU); auto.
    - intros u. destruct (Nat.eq_dec u t) as [->|NU]; rewrite ?upd_same, ?(upd_other _ _ _ _ NU); auto. rewrite (TH u NU). eapply trel_frame; [|apply G9]. intros z Hz. apply (FR u z NU Hz).
  Qed.
  Lemma openx_dec p z : openx p z \/ ~ openx p z.
  Proof. destruct p; cbn; auto. destruct (page_mode c); [|right; intros [X _]; discriminate]. destruct (in_dec Nat.eq_dec z (pages l)); [left; auto|right; intros [_ X]; auto]. Qed.
  (** A transition that changes no record. *)
  Lemma quiet y a Sh m g t p' a' : ginv y a Sh m g -> (t < n \/ y_pc y t <> PIdle) -> l_recs a' = l_recs a -> (forall u, u <> t -> l_th a' u = l_th a u) ->
    (forall z, openx (y_pc y t) z -> openx p' z \/ m z = g z) ->
    (forall u, u <> t -> (main_of p' = Some MX -> main_of (y_pc y u) = None) /\ (main_of (y_pc y u) = Some MX -> main_of p' = None)) ->
    (forall u z, u <> t -> In z (held p') -> In z (held (y_pc y u)) -> held_mode p' = false /\ held_mode (y_pc y u) = false) ->
    hon p' -> trel Sh m g p' (l_th a' t) -> ginv (mkSys (y_s y) (upd (y_pc y) t p')) a' Sh m g.
  Proof.
    intros G AL LR TH OP MA HE HO TR. pose proof G as [G1 G2 G3 G4 G5 G6 G7 G8 G9]. eapply move; eauto; [congruence|].
    intros z Hz NO NP. destruct (openx_dec (y_pc y t) z) as [O|O]; [destruct (OP z O) as [X|X]; [contradiction|exact X]|]. apply G4; [exact Hz|]. intros u. destruct (Nat.eq_dec u t) as [->|NU]; auto.
  Qed.
  Lemma quiet_keep y a Sh m g t p' a' : ginv y a Sh m g -> y_pc y t <> PIdle -> l_recs a' = l_recs a -> (forall u, u <> t -> l_th a' u = l_th a u) ->
    (forall z, openx (y_pc y t) z -> openx p' z \/ m z = g z) ->
    (main_of p' = None \/ main_of p' = main_of (y_pc y t)) -> (forall z, In z (held p') -> In z (held (y_pc y t))) -> (held p' <> [] -> held_mode p' = held_mode (y_pc y t)) ->
    hon p' -> trel Sh m g p' (l_th a' t) -> ginv (mkSys (y_s y) (upd (y_pc y) t p')) a' Sh m g.
  Proof.
    intros G AL LR TH OP MA HE HM HO TR. eapply quiet; eauto.
    - intros u NU. destruct MA as [MA|MA]; rewrite MA; [split; congruence|]. split; [apply (g_main _ _ _ _ _ G); auto|]. intros X. exact (g_main _ _ _ _ _ G u t NU X).
    - intros u z NU H1 H2. rewrite HM by (intros E; rewrite E in H1; destruct H1). apply (g_held _ _ _ _ _ G t u z); auto.
  Qed.

  (** * The moment a section takes effect *)
  Lemma runp_noeff l : forall m st, Forall (fun e => noeff (snd e)) l -> forall z, fst (runp l m st) z = m z.
  Proof.
    induction l as [|[y a] l IH]; intros m st F z; cbn [runp]; [reflexivity|]. inversion F; subst. rewrite IH by assumption. unfold updm. destruct (Nat.eqb_spec z y) as [->|]; [|reflexivity]. apply pact_noeff. assumption.
  Qed.
  Definition hit_of (l : list (id * act)) (g : id -> list rec) (x : loc) : bool :=
    match l with (y, AFirst _) :: _ => match g y with [] => x_hit x | _ => true end | _ => x_hit x end.
  Lemma recs_upd A lo y B g rs : NoDup (map snd (A ++ (lo, y) :: B)) -> recs (fill (A ++ (lo, y) :: B) (updm g y rs)) = recs (fill A g) ++ rs ++ recs (fill B g).
  Proof. intros N. rewrite fill_mid by exact N. apply recs_mid. Qed.
  Lemma recs_self Sh g y : recs (fill Sh (updm g y (g y))) = recs (fill Sh g).
  Proof. f_equal. apply fill_ext. intros z _. unfold updm. destruct (Nat.eqb_spec z y) as [->|]; auto. Qed.
  Lemma read_process (p : proc S) L k v st : reader p -> o_find cmp k L = Some (k, v) -> o_process cmp L k p false st = o_process cmp L k p true st.
  Proof. intros R F. unfold o_process, o_call. rewrite F. specialize (R k v st). destruct (on_full p k v st) as [a s1]. cbn in *. subst a. reflexivity. Qed.
  Lemma head_some A lo y e B g : hdsome (fill (A ++ (lo, y) :: e :: B) g) -> exists b, fst e = Some b.
  Proof. intros H. rewrite fill_at in H. apply hdsome_at in H. cbn [fill map] in H. inversion H; subst. destruct e as [[b|] z]; cbn in *; [eauto|congruence]. Qed.

  Lemma lin a Sh g t c l k x : NoDup (map snd Sh) -> ss (fill Sh g) -> hdsome (fill Sh g) -> recs (fill Sh g) = l_recs a -> honest c -> Forall (aok Sh) l -> before Sh c l k x (l_th a t) ->
    exists tau, lstep cmp a ETau (mkL (recs (fill Sh (fst (runp l g (x_s x))))) (tupd (l_th a) t tau)) /\ after Sh c k (mkLoc (snd (runp l g (x_s x))) (x_n x) (hit_of l g x)) tau.
  Proof.
    intros N Hs Hd HL HO AO BF. destruct k as [|y]; cbn [before after] in *.
    - destruct BF as (ET & -> & C). eexists. split; [|reflexivity]. destruct c as [k p w s|k v d s|kl w s|p w s|p w noop s|s|s]; try contradiction; cbn [loc0 st_of x_s x_n x_hit] in *.
      + destruct C as (y & ->). inversion AO as [|? ? [Hy R] _]; subst. cbn [fst snd] in *. destruct (shape_at _ _ Hy) as (A & lo & B & ->). cbn [runp pact fst snd hit_of x_hit].
        eapply ls_process; [exact ET|]. rewrite <- HL. apply page_process; auto. eapply routes_fill; exact R.
      + destruct C as (y & ->). inversion AO as [|? ? [Hy R] _]; subst. cbn [fst snd] in *. destruct (shape_at _ _ Hy) as (A & lo & B & ->). cbn [runp pact fst snd hit_of x_hit].
        pose proof (page_process cmp cmp_opp cmp_le_trans A lo y B g k N Hs Hd (routes_fill cmp _ _ _ _ g R) unit (append_proc unit v d) true tt) as PP. rewrite HL in PP.
        assert (EQ : fst (o_process cmp (l_recs a) k (append_proc unit v d) true tt) = match o_find cmp k (l_recs a) with Some (_, old) => o_put cmp k (old ++ d ++ v) (l_recs a) | None => o_put cmp k v (l_recs a) end).
        { unfold o_process, o_call. destruct (o_find cmp k (l_recs a)) as [[k1 old]|]; reflexivity. }
        rewrite PP in EQ. cbn [fst] in EQ. rewrite EQ. apply ls_append. exact ET.
      + destruct C as (ys & F & ->). replace (hit_of (sec_of kl w ys) g _) with false by (unfold sec_of; destruct (combine ys kl); reflexivity).
        eapply ls_multi; [exact ET|]. rewrite <- HL. apply multi_ok; auto.
    - destruct BF as (A & lo & B & a0 & ESh & W & -> & XN & XH & ET). cbn [runp fst snd hit_of].
      assert (HI : forall e B', B = e :: B' -> exists b, fst e = Some b) by (intros e B' ->; subst Sh; eapply head_some; exact Hd).
      pose proof (range_ok A lo y B g) as RG. rewrite <- ESh in RG. specialize (RG Hs Hd).
      pose proof (fun b => from_ok A lo y B g b) as FR. rewrite <- ESh in FR. specialize (fun b => FR b Hs).
      destruct c as [k p w s|k v d s|kl w s|p w s|p w noop s|s|s]; try discriminate; cbn [walk_act] in W; injection W as <-.
      + cbn [pact]. destruct (g y) as [|[k v] M] eqn:EG.
        * cbn [fst snd]. replace (updm g y []) with (updm g y (g y)) by (rewrite EG; reflexivity). rewrite recs_self, HL, XN, XH. rewrite HL in RG.
          assert (EX : mkLoc (x_s x) 0%Z false = x) by (destruct x; cbn in *; congruence). rewrite EX.
          destruct B as [|e B'] eqn:EB.
          { eexists. split; [eapply ls_first_none; [exact ET|exact RG]|]. exists A, lo, [], (AFirst p). rewrite XH. auto 10. }
          { destruct (HI e B' eq_refl) as (b & Eb). cbn [hi_of] in RG, FR. rewrite Eb in RG, FR. eexists. split; [eapply ls_first_on; [exact ET|apply FR; reflexivity|exact RG]|]. exists A, lo, (e :: B'), (AFirst p). rewrite XH, Eb. auto 10. }
        * eexists. split.
          { eapply ls_first; [exact ET|rewrite <- HL; exact RG|]. rewrite <- HL.
            assert (RT : routes (fill Sh g) k y). { rewrite ESh, fill_at. exists (fill A g), lo, (g y), (fill B g). split; [reflexivity|]. rewrite ESh, fill_at in Hs. eapply routes_rec; [exact Hs|rewrite EG; left; reflexivity]. }
            assert (PP : o_process cmp (recs (fill Sh g)) k p true (x_s x) = (recs (fill Sh (updm g y (fst (o_process cmp (g y) k p true (x_s x))))), snd (o_process cmp (g y) k p true (x_s x)))) by (subst Sh; apply page_process; auto).
            rewrite EG in PP. etransitivity; [|exact PP]. destruct w; [reflexivity|]. apply (read_process p _ k v); [apply HO; reflexivity|].
            destruct RG as (RG & F1 & _). rewrite RG. clear - F1 cmp_opp cmp_le_trans Hs ESh EG. assert (KK : o_find cmp k ((k, v) :: M ++ recs (fill B g)) = Some (k, v)) by (cbn; rewrite cmp_refl; reflexivity).
            cbn [app]. rewrite (OmapSpec.o_find_app cmp cmp_opp); [exact KK|]. apply (ss_recs cmp) in Hs. rewrite ESh, fill_at, recs_mid, EG in Hs. apply SS_app in Hs. destruct Hs as (_ & _ & H3).
            apply Forall_forall. intros r Hr. apply (H3 r (k, v) Hr). left. reflexivity. }
          { exists A, lo, B, (AFirst p). cbn [x_n x_hit]. rewrite XN. auto 10. }
      + assert (EE : exists M' s', o_each (g y) p w (x_s x) = (M', s') /\ pact (if w then AAll p else AShow p) (g y) (x_s x) = (M', s')).
        { destruct w; cbn [pact].
          - pose proof (keys_each cmp cmp_opp S p (g y) [] (x_s x)) as KE. cbn [app] in KE. rewrite KE; [destruct (o_each (g y) p true (x_s x)); cbn; eauto|]. pose proof (ss_recs cmp _ Hs) as SR. rewrite ESh, fill_at, recs_mid in SR. apply SS_app in SR. destruct SR as (_ & SR & _). apply SS_app in SR. apply SR.
          - rewrite o_each_read. eauto. }
        destruct EE as (M' & s' & E1 & E2). rewrite E2. cbn [fst snd]. rewrite ESh in N |- *. rewrite (recs_upd _ _ _ _ _ _ N). replace (match (if w then AAll p else AShow p) with AFirst _ => _ | _ => x_hit x end) with (x_hit x) by (destruct w; reflexivity). rewrite XN, XH.
        rewrite HL in RG. destruct B as [|e B'] eqn:EB.
        * cbn [fill map recs flat_map] in *. rewrite app_nil_r. eexists. split; [eapply ls_each_end; [exact ET|exact RG|exact E1]|]. exists A, lo, [], (if w then AAll p else AShow p). cbn. auto 10.
        * destruct (HI e B' eq_refl) as (b & Eb). cbn [hi_of] in RG, FR. rewrite Eb in RG, FR. eexists. split; [eapply ls_each; [exact ET|apply FR; reflexivity|exact RG|exact E1]|]. exists A, lo, (e :: B'), (if w then AAll p else AShow p). cbn [x_hit]. rewrite Eb. auto 10.
  Qed.
  Lemma split_uniq (A : shape) : forall lo B A1 lo1 B1 y, NoDup (map snd (A ++ (lo, y) :: B)) -> A ++ (lo, y) :: B = A1 ++ (lo1, y) :: B1 -> A1 = A /\ lo1 = lo /\ B1 = B.
  Proof.
    induction A as [|e A IH]; intros lo B A1 lo1 B1 y N E; destruct A1 as [|e1 A1]; cbn in *; injection E as E1 E2.
    - subst. auto.
    - subst. inversion N as [|? ? H _]; subst. exfalso. apply H. rewrite map_app. apply in_or_app. right. left. reflexivity.
    - subst. inversion N as [|? ? H _]; subst. exfalso. apply H. rewrite map_app. apply in_or_app. right. left. reflexivity.
    - subst e1. inversion N; subst. destruct (IH _ _ _ _ _ _ H2 E2) as (-> & -> & ->). auto.
  Qed.
  Ltac qk EP := try solve [rewrite EP; cbn; auto | rewrite EP; cbn; intros ? [] | rewrite EP; discriminate | cbn; auto | cbn; intros ? [] | cbn; congruence | intros; apply tupd_other; assumption].
  Lemma before_shape Sh c l k x tau y0 a0 r : before Sh c l k x tau -> l = (y0, a0) :: r ->
    Forall (fun e => isproc (snd e)) r /\ (page_mode c = true -> several c = false -> r = [] /\ forall p, a0 <> AAll p).
  Proof.
    destruct k as [|y]; cbn [before].
    - intros (_ & _ & C) ->. destruct c as [k p w s|k v d s|kl w s|p w s|p w noop s|s|s]; try contradiction.
      + destruct C as (y & E). injection E as -> -> ->. split; [constructor|]. split; [reflexivity|discriminate].
      + destruct C as (y & E). injection E as -> -> ->. split; [constructor|]. split; [reflexivity|discriminate].
      + destruct C as (ys & _ & E). split; [|cbn; congruence]. apply Forall_forall. intros e He. assert (I : In e (sec_of kl w ys)) by (rewrite <- E; right; exact He). unfold sec_of in I. apply in_map_iff in I. destruct I as (q & <- & _). unfold isproc. cbn. eauto.
    - intros (A & lo & B & a & _ & W & E & _) ->. injection E as -> -> ->. split; [constructor|]. destruct c as [k p w s|k v d s|kl w s|p w s|p w noop s|s|s]; try discriminate; cbn [walk_act] in W; injection W as <-; cbn; [split; [reflexivity|discriminate]|congruence].
  Qed.
  Lemma agree_held y a Sh m g t z : ginv y a Sh m g -> In z (map snd Sh) -> In z (held (y_pc y t)) -> ~ openx (y_pc y t) z -> m z = g z.
  Proof.
    intros G Hz Ht NO. apply (g_agree _ _ _ _ _ G z Hz). intros u O. destruct (Nat.eq_dec u t) as [->|NU]; [contradiction|].
    assert (Hu : In z (held (y_pc y u)) /\ held_mode (y_pc y u) = true) by (destruct (y_pc y u); try contradiction; cbn in O |- *; destruct O; auto). destruct Hu as [Hu Hm].
    destruct (g_held _ _ _ _ _ G u t z NU Hu Ht). congruence.
  Qed.
  (** No other thread is at an exclusive point while [t] holds the lock of the object. *)
  Lemma no_excl y a Sh m g t (p' : pc) : ginv y a Sh m g -> main_of (y_pc y t) = Some MS -> main_of p' = Some MS ->
    forall u, u <> t -> (main_of p' = Some MX -> main_of (y_pc y u) = None) /\ (main_of (y_pc y u) = Some MX -> main_of p' = None).
  Proof. intros G M1 M2 u NU. split; [congruence|]. intros X. pose proof (g_main _ _ _ _ _ G u t NU X). congruence. Qed.

  Lemma enter y a Sh m g t c l k x got y0 a0 r s' x' more : ginv y a Sh m g -> y_pc y t = PLock c l k x got [] -> l = (y0, a0) :: r ->
    exec_act (y_s y) y0 a0 x = Ok (s', x', more) ->
    exists a' m' g', lstep cmp a ETau a' /\ ginv (mkSys s' (upd (y_pc y) t (PBody c l k x' (more ++ r)))) a' Sh m' g'.
  Proof.
    intros G EP El EX. pose proof (g_thr _ _ _ _ _ G t) as T. rewrite EP in T. cbn [trel] in T. destruct T as (T1 & T2 & T3 & T4). rewrite app_nil_r in T1.
    pose proof (g_hon _ _ _ _ _ G t) as HO. rewrite EP in HO. cbn [hon] in HO. pose proof (g_nodup _ _ _ _ _ G) as N.
    destruct (before_shape _ _ _ _ _ _ _ _ _ T4 El) as [BS1 BS2].
    assert (AG : forall z, In z (pages l) -> m z = g z).
    { intros z Hz. apply (agree_held _ _ _ _ _ t z G); rewrite ?EP; cbn [pages_held openx]; [|rewrite T1; exact Hz|intros []]. apply in_pages in Hz. apply in_map_iff in Hz. destruct Hz as (e & <- & He). rewrite Forall_forall in T2. apply T2, He. }
    assert (Hy0 : In y0 (pages l)) by (apply in_pages; rewrite El; left; reflexivity).
    assert (A0 : aok Sh (y0, a0)) by (rewrite El in T2; inversion T2; auto). assert (F0 : fit c (y0, a0)) by (rewrite El in T3; inversion T3; auto).
    pose proof (exec_ok (y_s y) Sh m y0 a0 x (g_inv _ _ _ _ _ G) A0) as W. rewrite EX in W. destruct W as (m' & W1 & W2 & W3 & W4 & W5 & W6 & W7 & W8 & W9). destruct (W9 r) as [V1 V2]. rewrite <- El in V1, V2.
    destruct (runp_local l (pages l) m g (x_s x) AG) as [L1 L2]; [intros z Hz; apply in_pages; exact Hz|].
    destruct (lin a Sh g t c l k x N (g_ss _ _ _ _ _ G) (g_heads _ _ _ _ _ g G) (g_recs _ _ _ _ _ G) HO T2 T4) as (tau & LS & AF).
    assert (NE : page_mode c = false -> m' y0 = m y0 /\ forall z, fst (runp l g (x_s x)) z = g z).
    { intros PM. split; [apply W3, (F0 PM)|]. intros z. apply runp_noeff. eapply Forall_impl; [|exact T3]. intros e Fe. apply (Fe PM). }
    exists (mkL (recs (fill Sh (fst (runp l g (x_s x))))) (tupd (l_th a) t tau)), m', (fst (runp l g (x_s x))). split; [exact LS|].
    assert (AL : t < n \/ y_pc y t <> PIdle) by (right; rewrite EP; discriminate).
    apply (move y a Sh m g t s' _ m' _ _ G AL); cbn [l_recs l_th].
    - exact W1.
    - apply runp_ss; auto; [apply (g_ss _ _ _ _ _ G)|apply (g_heads _ _ _ _ _ g G)].
    - reflexivity.
    - intros u z NU Hz. destruct (in_dec Nat.eq_dec z (pages l)) as [I|I].
      + assert (PM : page_mode c = false). { destruct (g_held _ _ _ _ _ G u t z NU Hz) as [_ X]; [rewrite EP; cbn; rewrite T1; exact I|]. rewrite EP in X. exact X. }
        destruct (NE PM) as [X1 X2]. split; [|apply X2]. destruct (Nat.eq_dec z y0) as [->|NZ]; [exact X1|apply W2, NZ].
      + split; [apply W2; intros ->; contradiction|]. apply runp_out. intros I2. apply I, in_pages, I2.
    - intros z Hz NO NP. assert (MG : m z = g z) by (apply (g_agree _ _ _ _ _ G z Hz); intros u; destruct (Nat.eq_dec u t) as [->|NU]; [rewrite EP; intros []|apply NO, NU]).
      destruct (page_mode c) eqn:PM.
      + assert (I : ~ In z (pages l)) by (intros I; apply NP; cbn; auto). rewrite W2 by (intros ->; contradiction). rewrite runp_out; [exact MG|]. intros I2. apply I, in_pages, I2.
      + destruct (NE eq_refl) as [X1 X2]. rewrite X2. destruct (Nat.eq_dec z y0) as [->|NZ]; [congruence|]. rewrite W2 by exact NZ. exact MG.
    - apply (no_excl _ _ _ _ _ t _ G); [rewrite EP; reflexivity|reflexivity].
    - intros u z NU H1 H2. cbn [pages_held held_mode] in *. pose proof (g_held _ _ _ _ _ G t u z (not_eq_sym NU)) as X. rewrite EP in X. cbn [pages_held held_mode] in X. rewrite T1 in X. apply X; auto.
    - exact HO.
    - rewrite tupd_same. cbn [trel]. split; [|split; [|split; [|split; [|split; [|split]]]]].
      + unfold xfin. rewrite <- V1, L1, W7, W8. replace (match a0 with AFirst _ => _ | _ => _ end) with (hit_of l g x); [exact AF|]. rewrite El. cbn [hit_of]. rewrite (AG y0 Hy0). destruct a0; reflexivity.
      + apply Forall_app. split; [exact W4|]. rewrite El in T2. inversion T2; auto.
      + apply Forall_app. split; [|exact BS1]. eapply Forall_impl; [|exact W5]. intros e [_ X]. exact X.
      + apply Forall_app. split; [|rewrite El in T3; inversion T3; auto]. destruct more as [|e more]; [constructor|]. destruct W6 as (p & ->); [discriminate|]. apply Forall_forall. intros q _ PM. destruct (F0 PM).
      + intros z Hz. rewrite map_app in Hz. apply in_app_or in Hz. destruct Hz as [Hz|Hz].
        * apply in_map_iff in Hz. destruct Hz as (e & <- & He). rewrite Forall_forall in W5. destruct (W5 e He) as [-> _]. exact Hy0.
        * apply in_pages. rewrite El. right. exact Hz.
      + intros z Hz. rewrite <- V2. apply L2, Hz.
      + intros PM SV. destruct (BS2 PM SV) as [-> NA]. destruct more as [|e more]; [reflexivity|]. destruct W6 as (p & ->); [discriminate|]. destruct (NA p eq_refl).
    - intros u NU. apply tupd_other, NU.
  Qed.
  Lemma enter_nil y a Sh m g t c k x got : ginv y a Sh m g -> y_pc y t = PLock c [] k x got [] ->
    exists a', lstep cmp a ETau a' /\ ginv (mkSys (y_s y) (upd (y_pc y) t (PUn c k x []))) a' Sh m g.
  Proof.
    intros G EP. pose proof (g_thr _ _ _ _ _ G t) as T. rewrite EP in T. cbn [trel] in T. destruct T as (T1 & T2 & T3 & T4).
    pose proof (g_hon _ _ _ _ _ G t) as HO. rewrite EP in HO. cbn [hon] in HO. pose proof (g_nodup _ _ _ _ _ G) as N.
    destruct (lin a Sh g t c [] k x N (g_ss _ _ _ _ _ G) (g_heads _ _ _ _ _ g G) (g_recs _ _ _ _ _ G) HO T2 T4) as (tau & LS & AF). cbn [runp fst snd hit_of] in LS, AF.
    eexists. split; [exact LS|]. eapply quiet_keep; eauto; cbn [l_recs l_th]; qk EP.
    - apply (g_recs _ _ _ _ _ G).
    - rewrite tupd_same. cbn [trel]. replace (mkLoc (x_s x) (x_n x) (x_hit x)) with x in AF by (destruct x; reflexivity). exact AF.
  Qed.

  Lemma body y a Sh m g t c l k x y0 a0 r s' x' more : ginv y a Sh m g -> y_pc y t = PBody c l k x ((y0, a0) :: r) ->
    exec_act (y_s y) y0 a0 x = Ok (s', x', more) -> exists m', ginv (mkSys s' (upd (y_pc y) t (PBody c l k x' (more ++ r)))) a Sh m' g.
  Proof.
    intros G EP EX. pose proof (g_thr _ _ _ _ _ G t) as T. rewrite EP in T. cbn [trel] in T. destruct T as (T1 & T2 & T3 & T4 & T5 & T6 & T7).
    pose proof (g_hon _ _ _ _ _ G t) as HO. rewrite EP in HO. cbn [hon] in HO.
    inversion T2 as [|? ? A0 A1]; inversion T3 as [|? ? P0 P1]; inversion T4 as [|? ? F0 F1]; subst. assert (Hy0 : In y0 (pages l)) by (apply T5; left; reflexivity).
    pose proof (exec_ok (y_s y) Sh m y0 a0 x (g_inv _ _ _ _ _ G) A0) as W. rewrite EX in W. destruct W as (m' & W1 & W2 & W3 & W4 & W5 & W6 & W7 & W8 & W9). destruct (W9 r) as [V1 V2].
    assert (MN : more = []). { destruct more as [|e more]; [reflexivity|]. destruct W6 as (p & E); [discriminate|]. cbn in P0. subst a0. destruct P0 as (? & ? & ? & P0). discriminate. } subst more.
    assert (XH : x_hit x' = x_hit x) by (rewrite W8; destruct P0 as (? & ? & ? & P0); cbn in P0; subst a0; reflexivity).
    assert (NE : page_mode c = false -> forall z, m' z = m z) by (intros PM z; destruct (Nat.eq_dec z y0) as [->|NZ]; [apply W3, (F0 PM)|apply W2, NZ]).
    exists m'. assert (AL : t < n \/ y_pc y t <> PIdle) by (right; rewrite EP; discriminate). cbn [app] in *.
    apply (move y a Sh m g t s' _ m' g a G AL).
    - exact W1.
    - apply (g_ss _ _ _ _ _ G).
    - apply (g_recs _ _ _ _ _ G).
    - intros u z NU Hz. split; [|reflexivity]. destruct (Nat.eq_dec z y0) as [->|NZ]; [|apply W2, NZ]. apply NE. destruct (g_held _ _ _ _ _ G u t y0 NU Hz) as [_ X]; [rewrite EP; exact Hy0|]. rewrite EP in X. exact X.
    - intros z Hz NO NP. destruct (page_mode c) eqn:PM.
      + assert (I : ~ In z (pages l)) by (intros I; apply NP; cbn; auto). rewrite W2 by (intros ->; contradiction). apply (g_agree _ _ _ _ _ G z Hz). intros u O. destruct (Nat.eq_dec u t) as [->|NU]; [rewrite EP in O; destruct O; contradiction|exact (NO u NU O)].
      + rewrite (NE eq_refl). apply (g_agree _ _ _ _ _ G z Hz). intros u O. destruct (Nat.eq_dec u t) as [->|NU]; [rewrite EP in O; destruct O; congruence|exact (NO u NU O)].
    - apply (no_excl _ _ _ _ _ t _ G); [rewrite EP; reflexivity|reflexivity].
    - intros u z NU H1 H2. pose proof (g_held _ _ _ _ _ G t u z (not_eq_sym NU)) as X. rewrite EP in X. apply X; auto.
    - exact HO.
    - cbn [trel]. split; [|split; [|split; [|split; [|split; [|split]]]]]; auto.
      + unfold xfin in *. rewrite <- V1, W7, XH. exact T1.
      + intros z Hz. apply T5. right. exact Hz.
      + intros z Hz. rewrite <- V2. apply T6, Hz.
      + intros PM SV. specialize (T7 PM SV). discriminate.
    - auto.
  Qed.
  Lemma close_body y a Sh m g t c l k x : ginv y a Sh m g -> y_pc y t = PBody c l k x [] -> ginv (mkSys (y_s y) (upd (y_pc y) t (PUn c k x (rev (pages l))))) a Sh m g.
  Proof.
    intros G EP. pose proof (g_thr _ _ _ _ _ G t) as T. rewrite EP in T. cbn [trel] in T. destruct T as (T1 & T2 & T3 & T4 & T5 & T6 & T7). pose proof (g_hon _ _ _ _ _ G t) as HO. rewrite EP in HO.
    eapply quiet_keep; eauto; qk EP.
    - rewrite EP. intros z [_ O]. right. apply T6, O.
    - rewrite EP. cbn. intros z Hz. apply in_rev in Hz. exact Hz.
    - cbn [trel]. unfold xfin in T1. cbn [runp snd] in T1. replace (mkLoc (x_s x) (x_n x) (x_hit x)) with x in T1 by (destruct x; reflexivity). exact T1.
  Qed.
  Lemma unlock y a Sh m g t c k x z todo : ginv y a Sh m g -> y_pc y t = PUn c k x (z :: todo) -> ginv (mkSys (y_s y) (upd (y_pc y) t (PUn c k x todo))) a Sh m g.
  Proof.
    intros G EP. pose proof (g_thr _ _ _ _ _ G t) as T. rewrite EP in T. cbn [trel] in T. pose proof (g_hon _ _ _ _ _ G t) as HO. rewrite EP in HO.
    eapply quiet_keep; eauto; qk EP.
  Qed.
  Lemma walk_lock Sh m g c y0 lo A B x : Sh = A ++ (lo, y0) :: B -> honest c -> x_n x = 0%Z -> x_hit x = false -> walk_act c <> None -> trel Sh m g (walk_to addr c y0 x) (TWalk c lo x).
  Proof.
    intros E HO XN XH W. unfold walk_to. destruct (walk_act c) as [a0|] eqn:WA; [|congruence]. unfold lock_pc. cbn [trel app]. split; [reflexivity|].
    assert (I : In y0 (map snd Sh)) by (subst Sh; rewrite map_app; apply in_or_app; right; left; reflexivity).
    split; [|split].
    - constructor; [|constructor]. split; [exact I|]. destruct c; try discriminate; cbn [walk_act] in WA; injection WA as <-; cbn; auto. destruct w; exact Logic.I.
    - constructor; [|constructor]. intros PM. destruct c; try discriminate; cbn [walk_act] in WA; injection WA as <-; cbn in *; auto. rewrite PM. exact Logic.I.
    - cbn [before]. exists A, lo, B, a0. auto 10.
  Qed.
  Lemma walk_main (c : ccall) y0 x : main_of (walk_to addr c y0 x) = Some MS \/ main_of (walk_to addr c y0 x) = None. Proof. unfold walk_to. destruct (walk_act c); auto. Qed.
  Lemma walk_held (c : ccall) y0 x : held (walk_to addr c y0 x) = []. Proof. unfold walk_to. destruct (walk_act c); auto. Qed.
  Lemma walk_hon (c : ccall) y0 x : honest c -> hon (walk_to addr c y0 x). Proof. unfold walk_to. destruct (walk_act c); cbn; auto. Qed.
  Lemma leave y a Sh m g t c x : ginv y a Sh m g -> y_pc y t = PUn c CRet x [] -> ginv (mkSys (y_s y) (upd (y_pc y) t (PRet x))) a Sh m g.
  Proof.
    intros G EP. pose proof (g_thr _ _ _ _ _ G t) as T. rewrite EP in T. cbn [trel after] in T.
    eapply quiet_keep; eauto; qk EP. exists c. exact T.
  Qed.
  Lemma onward y a Sh m g t c y0 x : ginv y a Sh m g -> y_pc y t = PUn c (CWalk y0) x [] ->
    exists p', cact (y_s y) (y_pc y t) = Next (y_s y) p' /\ ginv (mkSys (y_s y) (upd (y_pc y) t p')) a Sh m g.
  Proof.
    intros G EP. pose proof (g_thr _ _ _ _ _ G t) as T. rewrite EP in T. cbn [trel after] in T. destruct T as (A & lo & B & a0 & ESh & W & XN & T). pose proof (g_hon _ _ _ _ _ G t) as HO. rewrite EP in HO. cbn [hon] in HO.
    assert (I : In y0 (map snd Sh)) by (subst Sh; rewrite map_app; apply in_or_app; right; left; reflexivity).
    rewrite EP. cbn [BabyConcModel.cact]. destruct (x_hit x) eqn:XH.
    - eexists. split; [reflexivity|]. eapply quiet_keep; eauto; qk EP. exists c. exact T.
    - destruct (leaf_of _ _ _ _ (g_inv _ _ _ _ _ G) I) as (A1 & lo1 & B1 & pv & E1 & EL). rewrite EL. cbn [next_of].
      assert (EQ : A1 = A /\ lo1 = lo /\ B1 = B). { pose proof (g_nodup _ _ _ _ _ G) as N. rewrite ESh in E1, N. destruct (split_uniq A lo B A1 lo1 B1 y0 N E1) as (? & ? & ?). auto. } destruct EQ as (-> & -> & ->).
      eexists. split; [reflexivity|]. destruct B as [|e B'].
      + eapply quiet_keep; eauto; qk EP. exists c. exact T.
      + eapply quiet_keep; eauto; qk EP.
        * rewrite EP. cbn [main_of]. destruct (walk_main c (snd e) x); auto.
        * rewrite walk_held. intros z [].
        * rewrite walk_held. congruence.
        * apply walk_hon, HO.
        * rewrite T. apply (walk_lock Sh m g c (snd e) (fst e) (A ++ [(lo, y0)]) B'); auto; [|congruence]. rewrite ESh, <- app_assoc. destruct e. reflexivity.
  Qed.

  (** * Finding the leaves *)
  Lemma route_in Sh m k y : routes (fill Sh m) k y -> In y (map snd Sh).
  Proof. intros (A & lo & rs & B & E & _). rewrite <- (fill_ids Sh m), E, map_app. apply in_or_app. right. left. reflexivity. Qed.
  Lemma first_at y a Sh m g : ginv y a Sh m g -> exists B, Sh = (None, b_first (y_s y)) :: B.
  Proof.
    intros G. pose proof (inv_first _ _ _ _ (g_inv _ _ _ _ _ G)) as F. destruct (i_core _ _ _ _ (g_inv _ _ _ _ _ G)) as (tr & E & _). pose proof (items_hdlo tr) as H. rewrite <- E in H. destruct Sh as [|[lo z] B]; cbn in *; [discriminate|]. injection F as <-. subst lo. eauto.
  Qed.
  Lemma openx_ex y a Sh m g z : ginv y a Sh m g -> (exists u, openx (y_pc y u) z) \/ (forall u, ~ openx (y_pc y u) z).
  Proof.
    intros G. assert (B : forall b, (exists u, openx (y_pc y u) z) \/ (forall u, u < b -> ~ openx (y_pc y u) z)).
    { induction b as [|b [IH|IH]]; [right; intros u Hu; lia|left; exact IH|]. destruct (openx_dec (y_pc y b) z) as [O|O]; [left; eauto|]. right. intros u Hu. destruct (Nat.eq_dec u b) as [->|]; [exact O|]. apply IH. lia. }
    destruct (B n) as [X|X]; [left; exact X|]. right. intros u O. destruct (le_lt_dec n u) as [H|H]; [rewrite (g_out _ _ _ _ _ G u H) in O; destruct O|exact (X u H O)].
  Qed.
  Lemma calm y a Sh m g : ginv y a Sh m g -> (forall u, busy (l_th a u) = false) -> forall z, In z (map snd Sh) -> m z = g z.
  Proof.
    intros G B z Hz. destruct (openx_ex _ _ _ _ _ z G) as [(u & O)|NO]; [|apply (g_agree _ _ _ _ _ G z Hz NO)].
    pose proof (g_thr _ _ _ _ _ G u) as T. specialize (B u). destruct (y_pc y u) as [| | | | | | |c l k x r| | | ] eqn:EP; try contradiction. cbn [openx] in O. destruct O as [PM I]. cbn [trel] in T. destruct T as (T1 & _ & _ & _ & _ & T6 & T7).
    assert (SV : several c = false).
    { destruct k as [|y0]; cbn [after] in T1; [rewrite T1 in B; exact B|]. destruct T1 as (A & lo & B1 & a0 & _ & _ & _ & T1). destruct (x_hit _); [rewrite T1 in B; exact B|]. destruct B1; rewrite T1 in B; exact B. }
    specialize (T7 PM SV). subst r. apply (T6 z I).
  Qed.
  Lemma finds y a Sh m g t c : ginv y a Sh m g -> y_pc y t = PFind c ->
    exists p' a', cact (y_s y) (y_pc y t) = Next (y_s y) p' /\ (a' = a \/ lstep cmp a ETau a') /\ ginv (mkSys (y_s y) (upd (y_pc y) t p')) a' Sh m g.
  Proof.
    intros G EP. pose proof (g_thr _ _ _ _ _ G t) as T. rewrite EP in T. cbn [trel] in T. destruct T as [T1 T2]. pose proof (g_hon _ _ _ _ _ G t) as HO. rewrite EP in HO. cbn [hon] in HO.
    pose proof (g_inv _ _ _ _ _ G) as I.
    assert (KEEP : forall l k, before Sh c l k (loc0 c) (TCalled c) -> Forall (aok Sh) l -> Forall (fit c) l -> ginv (mkSys (y_s y) (upd (y_pc y) t (lock_pc addr c l k (loc0 c)))) a Sh m g).
    { intros l k B A F. eapply quiet_keep; eauto; qk EP. unfold lock_pc. cbn [trel app]. rewrite T1. auto. }
    assert (WALK : forall x0, x_n x0 = 0%Z -> x_hit x0 = false -> walk_act c <> None -> ginv (mkSys (y_s y) (upd (y_pc y) t (walk_to addr c (b_first (y_s y)) x0))) (mkL (l_recs a) (tupd (l_th a) t (TWalk c None x0))) Sh m g).
    { intros x0 XN XH W. destruct (first_at _ _ _ _ _ G) as (B & ESh). eapply quiet_keep; eauto; cbn [l_recs l_th]; qk EP.
      - rewrite EP. cbn [main_of]. destruct (walk_main c (b_first (y_s y)) x0); auto.
      - rewrite walk_held. intros z [].
      - rewrite walk_held. congruence.
      - apply walk_hon, HO.
      - rewrite tupd_same. apply (walk_lock Sh m g c _ None [] B); auto. }
    rewrite EP. destruct c as [k p w s|k v d s|kl w s|p w s|p w noop s|s|s]; cbn [BabyConcModel.cact]; try discriminate.
    - pose proof (search_sure cmp cmp_opp cmp_le_trans _ _ k I) as R. destruct (b_search cmp (y_s y) k) as [z|e]; cbn [sure next_of] in *; [|contradiction]. eexists _, a. split; [reflexivity|]. split; [auto|]. apply KEEP.
      + cbn [before]. eauto.
      + constructor; [|constructor]. split; [eapply route_in; exact R|]. cbn. eapply routes_fill. exact R.
      + constructor; [|constructor]. intros PM. exact PM.
    - pose proof (search_sure cmp cmp_opp cmp_le_trans _ _ k I) as R. destruct (b_search cmp (y_s y) k) as [z|e]; cbn [sure next_of] in *; [|contradiction]. eexists _, a. split; [reflexivity|]. split; [auto|]. apply KEEP.
      + cbn [before]. eauto.
      + constructor; [|constructor]. split; [eapply route_in; exact R|]. cbn. eapply routes_fill. exact R.
      + constructor; [|constructor]. intros PM. discriminate.
    - pose proof (search_all_sure cmp cmp_opp cmp_le_trans _ _ (map fst kl) I) as R. destruct (search_all cmp (y_s y) (map fst kl)) as [ys|e]; cbn [sure next_of] in *; [|contradiction]. eexists _, a. split; [reflexivity|]. split; [auto|].
      assert (R0 : Forall2 (fun k z => routes (fill Sh (fun _ => [])) k z) (map fst kl) ys) by (clear - R; induction R; constructor; auto; eapply routes_fill; eauto).
      apply KEEP.
      + cbn [before]. eauto 6.
      + clear - R0. revert ys R0. induction kl as [|[k p] kl IH]; intros ys R; inversion R; subst; unfold sec_of; cbn [combine map]; constructor; [|apply IH; assumption]. split; [eapply route_in; eassumption|]. assumption.
      + apply Forall_forall. intros e He PM. unfold sec_of in He. apply in_map_iff in He. destruct He as (q & <- & _). exact PM.
    - eexists _, _. split; [reflexivity|]. split; [right; apply (ls_begin_first cmp a t p w s T1)|]. apply (WALK (loc0 (KFirst p w s))); auto. discriminate.
    - eexists _, _. split; [reflexivity|]. split; [right; apply (ls_begin_each cmp a t p w noop s T1)|]. apply (WALK (call_empty (KEach p w noop s) (loc0 (KEach p w noop s)))); auto. discriminate.
    - eexists _, _. split; [reflexivity|]. split.
      + right. apply (ls_count cmp a t s (b_num (y_s y)) T1). intros B. rewrite (i_num _ _ _ _ I), <- (g_recs _ _ _ _ _ G). do 3 f_equal. apply fill_ext. apply (calm _ _ _ _ _ G B).
      + eapply quiet_keep; eauto; cbn [l_recs l_th]; qk EP. rewrite tupd_same. cbn. eauto.
  Qed.

  (** * Under the exclusive lock *)
  Lemma alone y a Sh m g t s' p' a' E' : ginv y a Sh m g -> main_of (y_pc y t) = Some MX -> inv s' [] E' -> recs E' = l_recs a' ->
    main_of p' = None -> hon p' -> (forall Sh m g, trel Sh m g p' (l_th a' t)) -> (forall u, u <> t -> l_th a' u = l_th a u) ->
    exists Sh' m', ginv (mkSys s' (upd (y_pc y) t p')) a' Sh' m' m'.
  Proof.
    intros G MX0 I R MP HO TR TH. pose proof (fill_of E' (inv_nodup _ _ _ _ I)) as EF. exists (map fst E'), (page_of E'). rewrite EF in I, R.
    assert (OUT : forall u, u <> t -> main_of (y_pc y u) = None) by (intros u NU; apply (g_main _ _ _ _ _ G t u); auto).
    assert (NH : forall p, main_of p = None -> held p = [] /\ forall z, ~ openx p z) by (intros p; destruct p; cbn; intros; try discriminate; auto).
    assert (ALL : forall u, main_of (upd (y_pc y) t p' u) = None) by (intros u; destruct (Nat.eq_dec u t) as [->|NU]; rewrite ?upd_same, ?(upd_other _ _ _ _ NU); auto).
    constructor; cbn [y_s y_pc]; auto.
    - apply (inv_ss _ _ _ _ I).
    - intros u v z NE H1. destruct (NH _ (ALL u)) as [X _]. rewrite X in H1. destruct H1.
    - intros u Hu. destruct (Nat.eq_dec u t) as [->|NU]; rewrite ?upd_same, ?(upd_other _ _ _ _ NU); [|apply (g_out _ _ _ _ _ G u Hu)]. exfalso. rewrite (g_out _ _ _ _ _ G t Hu) in MX0. discriminate.
    - intros u. destruct (Nat.eq_dec u t) as [->|NU]; rewrite ?upd_same, ?(upd_other _ _ _ _ NU); auto. apply (g_hon _ _ _ _ _ G u).
    - intros u. destruct (Nat.eq_dec u t) as [->|NU]; rewrite ?upd_same, ?(upd_other _ _ _ _ NU); auto. rewrite (TH u NU). pose proof (g_thr _ _ _ _ _ G u) as T. specialize (OUT u NU). destruct (y_pc y u); try discriminate; exact T.
  Qed.

  Definition ubx (e : ub) : Prop := (e = EmptyFront /\ h_strict how = true) \/ e = DeepTree.
  (** What a thread does by itself. *)
  Lemma act_ok y a Sh m g t : ginv y a Sh m g ->
    match cact (y_s y) (y_pc y t) with
    | Wait => True
    | UB e => ubx e
    | Next s' p' => exists a' Sh' m' g', (a' = a \/ lstep cmp a ETau a') /\ ginv (mkSys s' (upd (y_pc y) t p')) a' Sh' m' g'
    end.
  Proof.
    intros G. pose proof (g_thr _ _ _ _ _ G t) as T. pose proof (g_hon _ _ _ _ _ G t) as HO.
    destruct (y_pc y t) as [|c|c|c|c|c|c l k x got todo|c l k x r|c k x todo|c|x] eqn:EP; cbn [BabyConcModel.cact]; auto.
    - destruct (reorganize_ok cmp cmp_opp cmp_le_trans divp mrgp weight max_branches level_max choose divp_two _ _ (g_inv _ _ _ _ _ G)) as [R|(s' & E' & R & R1 & _ & R2 & _)]; rewrite R; cbn [next_of]; [right; reflexivity|].
      assert (RE : recs E' = l_recs a). { rewrite R2, <- (g_recs _ _ _ _ _ G). f_equal. apply fill_ext. intros z Hz. apply (g_agree _ _ _ _ _ G z Hz). intros u O. destruct (Nat.eq_dec u t) as [->|NU]; [rewrite EP in O; exact O|].
        assert (X : main_of (y_pc y u) = None) by (apply (g_main _ _ _ _ _ G t u); [auto|rewrite EP; reflexivity]). destruct (y_pc y u); cbn in X, O; try discriminate; contradiction. }
      cbn [trel hon] in T, HO. destruct (alone y a Sh m g t s' (PMain c) a E' G) as (Sh' & m' & G'); auto; [rewrite EP; reflexivity|]. exists a, Sh', m', m'. auto.
    - destruct (finds _ _ _ _ _ _ _ G EP) as (p' & a' & E1 & E2 & E3). rewrite EP in E1. cbn [BabyConcModel.cact] in E1. rewrite E1. exists a', Sh, m, g. auto.
    - destruct todo; [|exact I]. destruct l as [|[y0 a0] r].
      + destruct (enter_nil _ _ _ _ _ _ _ _ _ _ G EP) as (a' & L & G'). exists a', Sh, m, g. auto.
      + cbn [trel] in T. destruct T as (_ & T2 & _). inversion T2 as [|? ? A0 _]; subst. pose proof (exec_ok (y_s y) Sh m y0 a0 x (g_inv _ _ _ _ _ G) A0) as W.
        destruct (exec_act (y_s y) y0 a0 x) as [[[s' x'] more]|e] eqn:EX; cbn [next_of]; [|left; exact W].
        destruct (enter _ _ _ _ _ _ _ _ _ _ _ _ _ _ _ _ _ G EP eq_refl EX) as (a' & m' & g' & L & G'). exists a', Sh, m', g'. auto.
    - destruct r as [|[y0 a0] r].
      + exists a, Sh, m, g. split; [auto|]. apply close_body; auto.
      + cbn [trel] in T. destruct T as (_ & T2 & _). inversion T2 as [|? ? A0 _]; subst. pose proof (exec_ok (y_s y) Sh m y0 a0 x (g_inv _ _ _ _ _ G) A0) as W.
        destruct (exec_act (y_s y) y0 a0 x) as [[[s' x'] more]|e] eqn:EX; cbn [next_of]; [|left; exact W].
        destruct (body _ _ _ _ _ _ _ _ _ _ _ _ _ _ _ _ G EP EX) as (m' & G'). exists a, Sh, m', g. auto.
    - destruct todo as [|z todo].
      + destruct k as [|y0].
        * exists a, Sh, m, g. split; [auto|]. eapply leave; eauto.
        * destruct (onward _ _ _ _ _ _ _ _ _ G EP) as (p' & E1 & E2). rewrite EP in E1. cbn [BabyConcModel.cact] in E1. rewrite E1. exists a, Sh, m, g. auto.
      + assert (Y : ginv (mkSys (y_s y) (upd (y_pc y) t (PUn c k x todo))) a Sh m g) by (eapply unlock; eauto). destruct k; exists a, Sh, m, g; auto.
    - cbn [trel] in T. destruct T as [T X]. destruct c; try discriminate. destruct (stands_init cmp) as (E0 & I0 & R0).
      destruct (alone y a Sh m g t b_init (PRet (loc0 (KClear s))) (mkL [] (tupd (l_th a) t (TDone (KClear s) (mkLoc s 0%Z false)))) E0 G) as (Sh' & m' & G'); cbn [l_recs l_th]; auto.
      + rewrite EP. reflexivity.
      + intros. rewrite tupd_same. cbn. eauto.
      + intros u NU. apply tupd_other, NU.
      + eexists _, Sh', m', m'. split; [|exact G']. right. apply ls_clear; [exact T|]. intros u c lo x Tu. pose proof (g_thr _ _ _ _ _ G u) as T3. destruct (Nat.eq_dec u t) as [->|NU]; [congruence|].
        assert (X3 : main_of (y_pc y u) = None) by (apply (g_main _ _ _ _ _ G t u); [auto|rewrite EP; reflexivity]). rewrite Tu in T3. destruct (y_pc y u); cbn in X3, T3; try discriminate. destruct T3; discriminate.
  Qed.

  Lemma step_ok y a Sh m g e y' : ginv y a Sh m g -> step cmp divp mrgp weight how max_branches level_max choose addr n y e y' -> (forall t c, e = ECall t c -> honest c) ->
    exists a' Sh' m' g', ginv y' a' Sh' m' g' /\ (e = ETau -> a' = a \/ lstep cmp a ETau a') /\ (e <> ETau -> lstep cmp a e a').
  Proof.
    intros G ST HN. destruct ST as [t c HT EP|t c b EP|t c EP FM|t c EP FM|t c l k x got z todo EP FP|t s' p' EC|t x EP].
    - eexists (mkL (l_recs a) (tupd (l_th a) t (TCalled c))), Sh, m, g. pose proof (g_thr _ _ _ _ _ G t) as T. rewrite EP in T. cbn [trel] in T. split; [|split; [discriminate|intros _; apply ls_call; exact T]].
      specialize (HN t c eq_refl). assert (ST : main_of (start c) = None /\ held (start c) = [] /\ hon (start c)) by (unfold start; destruct (checks c); auto). destruct ST as (S1 & S2 & S3).
      eapply quiet; eauto; cbn [l_recs l_th].
      + intros; apply tupd_other; assumption.
      + rewrite EP. intros z [].
      + intros u NU. rewrite S1. split; congruence.
      + rewrite S2. intros u z _ [].
      + rewrite tupd_same. unfold start. destruct (checks c); reflexivity.
    - pose proof (g_thr _ _ _ _ _ G t) as T. rewrite EP in T. pose proof (g_hon _ _ _ _ _ G t) as HO. rewrite EP in HO. exists a, Sh, m, g. split; [|split; [auto|congruence]]. destruct b; eapply quiet_keep; eauto; qk EP.
    - pose proof (g_thr _ _ _ _ _ G t) as T. rewrite EP in T. pose proof (g_hon _ _ _ _ _ G t) as HO. rewrite EP in HO. exists a, Sh, m, g. split; [|split; [auto|congruence]]. eapply quiet; eauto; qk EP.
      + right. rewrite EP. discriminate.
      + intros u NU. split; [|intros X; destruct (FM u _ NU X); discriminate]. intros _. destruct (main_of (y_pc y u)) as [b|] eqn:E; [|reflexivity]. destruct (FM u b NU E). discriminate.
      + intros u z _ [].
    - pose proof (g_thr _ _ _ _ _ G t) as T. rewrite EP in T. cbn [trel] in T. pose proof (g_hon _ _ _ _ _ G t) as HO. rewrite EP in HO. cbn [hon] in HO. exists a, Sh, m, g. split; [|split; [auto|congruence]]. eapply quiet; eauto.
      + right. rewrite EP. discriminate.
      + rewrite EP. cbn. intros z [].
      + intros u NU. split.
        * intros X. destruct (main_of (y_pc y u)) as [b|] eqn:E; [|reflexivity]. destruct (FM u b NU E) as [X1 _]. destruct (excl c); [discriminate|]. cbn in X. discriminate.
        * intros X. destruct (FM u _ NU X). discriminate.
      + destruct (excl c); intros u z _ [].
      + destruct (excl c); exact HO.
      + destruct (excl c) eqn:X; cbn; auto.
    - pose proof (g_thr _ _ _ _ _ G t) as T. rewrite EP in T. cbn [trel] in T. destruct T as (T1 & T). pose proof (g_hon _ _ _ _ _ G t) as HO. rewrite EP in HO. exists a, Sh, m, g. split; [|split; [auto|congruence]]. eapply quiet; eauto.
      + right. rewrite EP. discriminate.
      + rewrite EP. intros z0 [].
      + apply (no_excl _ _ _ _ _ t _ G); [rewrite EP; reflexivity|reflexivity].
      + intros u z0 NU H1 H2. cbn [pages_held held_mode] in *. apply in_app_or in H1. destruct H1 as [H1|[<-|[]]].
        * pose proof (g_held _ _ _ _ _ G t u z0 (not_eq_sym NU)) as X. rewrite EP in X. apply X; auto.
        * destruct (FP u NU H2). auto.
      + cbn [trel]. rewrite <- app_assoc. cbn [app]. auto.
    - pose proof (act_ok y a Sh m g t G) as A. rewrite EC in A. destruct A as (a' & Sh' & m' & g' & A1 & A2). exists a', Sh', m', g'. split; [exact A2|]. split; [auto|congruence].
    - pose proof (g_thr _ _ _ _ _ G t) as T. rewrite EP in T. cbn [trel] in T. destruct T as (c & T). eexists (mkL (l_recs a) (tupd (l_th a) t TIdle)), Sh, m, g. split; [|split; [discriminate|intros _; eapply ls_ret; exact T]].
      eapply quiet_keep; eauto; cbn [l_recs l_th]; qk EP. rewrite tupd_same. reflexivity.
  Qed.
  Lemma ginv_init : exists Sh m, ginv init l_init Sh m m.
  Proof.
    destruct (stands_init cmp) as (E0 & I0 & R0). pose proof (fill_of E0 (inv_nodup _ _ _ _ I0)) as EF. exists (map fst E0), (page_of E0). rewrite EF in I0, R0. constructor; cbn; auto.
    apply (inv_ss _ _ _ _ I0).
  Qed.
  Notation run := (run cmp divp mrgp weight how max_branches level_max choose addr n).
  Lemma run_ok tr y : run init tr y -> (forall t c, In (ECall t c) tr -> honest c) -> exists a Sh m g, ginv y a Sh m g /\ lrun cmp l_init tr a.
  Proof.
    intros R. remember init as y0 eqn:E0. induction R as [y|y y1 tr y2 R IH ST|y y1 tr e y2 R IH NE ST]; intros H; subst.
    - destruct ginv_init as (Sh & m & G). exists l_init, Sh, m, m. split; [exact G|constructor].
    - destruct (IH eq_refl H) as (a & Sh & m & g & G & L). destruct (step_ok _ _ _ _ _ _ _ G ST) as (a' & Sh' & m' & g' & G' & X & _); [intros; discriminate|]. exists a', Sh', m', g'. split; [exact G'|]. destruct (X eq_refl) as [->|X1]; [exact L|eapply lrun_tau; eauto].
    - destruct (IH eq_refl) as (a & Sh & m & g & G & L); [intros t c I; apply (H t c), in_or_app; auto|]. destruct (step_ok _ _ _ _ _ _ _ G ST) as (a' & Sh' & m' & g' & G' & _ & X).
      + intros t c ->. apply (H t c). apply in_or_app. right. left. reflexivity.
      + exists a', Sh', m', g'. split; [exact G'|]. eapply lrun_ev; eauto.
  Qed.
End Proofs.
