(** Histories of calls on the B+ tree. *)
From Coq Require Import List NArith ZArith Bool Lia Arith Permutation Sorting.Sorted.
Import ListNotations.
From Verif Require Import Bytes DbmModel StatusModel OmapSpec OmapHist BtreeModel BtreeTree BtreeSort BtreeUp BtreeInv BtreeMerge BtreeOps BtreeRun BtreeIter.

Section Hist.
  Variable cmp : bytes -> bytes -> comparison.
  Variables divp mrgp : list rec -> bool.
  Variable weight : list rec -> N.
  Variable how : leafcf.
  Notation gives := (givesx (h_strict how)).
  Variables max_branches level_max : nat.
  Variable choose : list (id * bytes) -> nat.
  Variable baby : bool.
  Variable S : Type.
  (** One call on the database: dispatch to the functions of the model.  [baby] selects the variants of BabyDBM. *)
  Definition b_call (c : ocall S) (s : bdb) (st : S) : res (code * bdb * S) :=
    match c with
    | KProcess k p w => '(s', st') <~ b_process cmp divp mrgp weight how max_branches level_max choose s k p w st ;; Ok (SUCCESS, s', st')
    | KAppend k v d =>
        if baby then s' <~ b_append cmp divp mrgp weight max_branches level_max choose s k v d ;; Ok (SUCCESS, s', st)
        else '(s', _) <~ b_process cmp divp mrgp weight how max_branches level_max choose s k (pr_append v d) true tt ;; Ok (SUCCESS, s', st)
    | KMulti l w => '(s', st') <~ b_multi cmp divp mrgp weight how max_branches level_max choose baby s l w st ;; Ok (SUCCESS, s', st')
    | KFirst p w => '(c, s', st') <~ b_first_of cmp divp mrgp weight how max_branches level_max choose baby s p w st ;; Ok (if c then SUCCESS else NOT_FOUND_ERROR, s', st')
    | KEach p w => '(s', st') <~ b_each cmp divp mrgp weight how max_branches level_max choose baby s p w st ;; Ok (SUCCESS, s', st')
    | KClear => Ok (SUCCESS, b_clear s, st)
    | KItFirst j => s' <~ it_first s j ;; Ok (SUCCESS, s', st)
    | KItLast j => s' <~ it_last s j ;; Ok (SUCCESS, s', st)
    | KItJump j k => s' <~ it_jump s j k ;; Ok (SUCCESS, s', st)
    | KItLower j k i => s' <~ it_jump_lower cmp s j k i ;; Ok (SUCCESS, s', st)
    | KItUpper j k i => s' <~ it_jump_upper cmp s j k i ;; Ok (SUCCESS, s', st)
    | KItNext j => '(c, s') <~ it_next cmp s j ;; Ok (c, s', st)
    | KItPrev j => '(c, s') <~ it_previous cmp s j ;; Ok (c, s', st)
    | KItProcess j p w => it_process cmp divp mrgp weight how max_branches level_max choose s j p w st
    end.
  Fixpoint b_calls (cs : list (ocall S)) (s : bdb) (st : S) : res (list code * bdb * S) :=
    match cs with
    | [] => Ok ([], s, st)
    | c :: r => '(cd, s1, st1) <~ b_call c s st ;; '(cds, s2, st2) <~ b_calls r s1 st1 ;; Ok (cd :: cds, s2, st2)
    end.

  Hypothesis cmp_opp : forall a b, cmp b a = CompOpp (cmp a b).
  Hypothesis cmp_le_trans : forall a b c, cmp a b <> Gt -> cmp b c <> Gt -> cmp a c <> Gt.
  Hypothesis divp_two : forall rs, divp rs = true -> 2 <= length rs.
  Notation stands := (stands cmp).

  Lemma stands_init : stands b_init [].
  Proof.
    exists [(None, 0, [])]. split; auto. constructor; cbn.
    - exists (TL 0 []). split; auto. constructor; cbn; auto.
      all: repeat first [lia | constructor | intros []].
    - reflexivity. - intros j k x H. discriminate. - intros x k [].
  Qed.

  Lemma asc_of : forall s E, inv cmp s [] E -> ascending cmp (recs E).
  Proof. intros s E H. apply (ss_recs cmp). eapply inv_ss; exact H. Qed.
  (** The state and the abstract one. *)
  Definition rel (s : bdb) (o : ost) : Prop := stands s (o_recs o) /\ forall j, it_key (b_its s j) = o_pos o j.
  Definition abs (s : bdb) (L : omap) : ost := mkO L (fun j => it_key (b_its s j)).
  Lemma rel_abs : forall s L, stands s L -> rel s (abs s L). Proof. intros s L H. split; auto. Qed.
  Lemma rel_stay : forall s o s' L, rel s o -> kept s s' -> stay o (abs s' L). Proof. intros s o s' L [_ R] K j. cbn. now rewrite K. Qed.
  Lemma rel_moved : forall s o s1 j i L r, rel s o -> kept s s1 -> it_key i = r -> moved o (abs (set_it s1 j i) L) j r.
  Proof. intros s o s1 j i L r [_ R] K <- j0. unfold abs. cbn [o_pos]. rewrite set_it_keys. destruct (Nat.eqb j0 j); auto. now rewrite K. Qed.
  Lemma stands_it : forall s E j i, inv cmp s [] E -> it_at E i -> stands (set_it s j i) (recs E).
  Proof. intros s E j i H Hi. exists E. split; auto. apply set_it_inv; auto. Qed.
  Lemma gives_loose : forall {sb A} (r : res A) P, givesx false r P -> givesx sb r P. Proof. intros sb A [a|e] P H; cbn in *; auto. destruct H as [[_ H]|H]; [discriminate|auto]. Qed.

  Lemma append_goes : forall s L key value delim, stands s L ->
    givesx false (b_append cmp divp mrgp weight max_branches level_max choose s key value delim) (fun s' => goes cmp s s' (fst (o_process cmp L key (append_proc unit value delim) true tt))).
  Proof.
    intros s L key value delim H. pose proof (process_goes cmp cmp_opp cmp_le_trans divp mrgp weight (mkHow false false) max_branches level_max choose divp_two unit s L key (append_proc unit value delim) true tt H) as W.
    unfold b_process in W. unfold b_append. destruct (reorganize cmp divp mrgp weight max_branches level_max choose s) as [s1|e]; cbn [bind] in *; auto.
    destruct (b_search cmp s1 key) as [x|e]; cbn [bind] in *; auto. unfold b_impl in W. destruct (leaf_at (b_h s1) x) as [[[p n] rs]|e]; cbn [bind] in *; auto.
    destruct (lower cmp key rs) as [l1 l2]. destruct l2 as [|[k v] r]; cbn [on_full on_empty append_proc andb negb orb] in *.
    - destruct (divp (l1 ++ [(key, value)])); cbn [bind] in *; [destruct (note _ x _) as [s2|e]; cbn [bind gives] in *; auto; apply W|apply W].
    - destruct (ltb cmp key k); cbn [bind] in *.
      + destruct (divp (l1 ++ (key, value) :: (k, v) :: r)); cbn [bind] in *; [destruct (note _ x _) as [s2|e]; cbn [bind gives] in *; auto; apply W|apply W].
      + apply W.
  Qed.

  (** BabyDBM::ProcessFirst with writable = false is left out: see the refutation. *)
  Definition fair (c : ocall S) : Prop := match c with KFirst _ w => baby = true -> w = true | _ => True end.

  (** Calls that change no record: the moves of iterators, and reading. *)
  Definition ronly (c : ocall S) : bool :=
    match c with
    | KProcess _ _ w => negb w | KItProcess _ _ w => negb w
    | KItFirst _ | KItLast _ | KItJump _ _ | KItLower _ _ _ | KItUpper _ _ _ | KItNext _ | KItPrev _ => true
    | _ => false
    end.
  Definition lim {A} (w : bool) (r : res A) (P : A -> Prop) : Prop := if w then gives r P else sure r P.
  Lemma it_process_ok : forall j (p : proc S) w s o st, rel s o -> lim w (it_process cmp divp mrgp weight how max_branches level_max choose s j p w st) (fun '(cd, s', st') => exists o', ostep cmp S (KItProcess j p w) o st cd o' st' /\ rel s' o').
  Proof.
    intros j p w s o st R. pose proof (proj1 R) as H. cbn [ostep].
    assert (LIM : forall A B (r : res A) (f : A -> res B) P Q, sure r P -> (forall a, P a -> lim w (f a) Q) -> lim w (bind r f) Q) by (destruct w; intros; [eapply sure_gives_bind; eauto|eapply sure_bind; eauto]).
    assert (LOK : forall A (a : A) (P : A -> Prop), P a -> lim w (Ok a) P) by (destruct w; auto).
    assert (LRO : forall (f : bdb -> res (code * bdb * S)) Q, (forall s1, goes cmp s s1 (o_recs o) -> lim w (f s1) Q) -> lim w (bind (if w then reorganize cmp divp mrgp weight max_branches level_max choose s else Ok s) f) Q).
    { intros f Q Hf. destruct w; [|cbn; apply Hf; split; auto; apply kept_refl]. eapply gives_bind; [apply (reorganize_goes cmp cmp_opp cmp_le_trans divp mrgp weight how max_branches level_max choose divp_two); exact H|exact Hf]. }
    unfold it_process. apply LRO. intros s1 [(E1 & H1 & HL1) K]. rewrite <- (proj2 R), <- K.
      destruct (b_its s1 j) as [[key ox]|] eqn:Ei; cbn [it_key option_map fst].
      + eapply LIM; [apply (sync_sure cmp cmp_opp cmp_le_trans s1 E1 key ox H1)|].
        * intros x ->. eapply (i_its _ _ _ _ H1); eauto.
        * intros i [I1 I2]. rewrite HL1 in I1. destruct (o_ge cmp key (o_recs o)) as [[k1 v1]|] eqn:Eg; cbn in I1.
          { destruct (it_key_some _ _ I1) as (ox1 & ->). destruct (I2 k1 ox1 eq_refl) as (x & A & lo & rs & B & v & -> & EE & Hk).
            assert (S2 : inv cmp (set_it s1 j (Some (k1, Some x))) [] E1) by (apply set_it_inv; auto).
            assert (Rt : BtreeSort.routes cmp E1 k1 x) by (subst E1; exists A, lo, rs, B; split; auto; eapply routes_rec; [eapply inv_ss; exact H1|exact Hk]).
            destruct w.
            - eapply gives_bind; [apply (impl_goes cmp cmp_opp cmp_le_trans divp mrgp weight how divp_two S _ E1 x k1 p true st S2 Rt)|].
              intros [s3 st3] (E3 & J1 & _ & _ & T & J2 & J3 & _). cbn [gives]. rewrite HL1 in J2, J3. exists (abs s3 (recs E3)). split; [|apply rel_abs; exists E3; auto].
              split; [|repeat split; auto]. intros i0. pose proof (rel_moved s o s1 j (Some (k1, Some x)) (recs E3) (Some k1) R K eq_refl i0) as M. unfold abs in M |- *. cbn [o_pos] in M |- *. rewrite (tied_kept _ _ T). exact M.
            - rewrite (chain_at _ _ _ _ _ _ (eq_rect _ (fun E => chain (b_h s1) None E None) (inv_chain _ _ _ _ H1) _ EE)). cbn [bind].
              pose proof (eq_rect _ (fun E => BtreeSort.ss cmp E) (inv_ss _ _ _ _ H1) _ EE) as Hs. pose proof (eq_rect _ hdsome (inv_hdsome _ _ _ _ H1) _ EE) as Hd. cbn in Hs, Hd.
              pose proof (asc_of _ _ H1) as As1. destruct (lower cmp k1 rs) as [l1 l2] eqn:El. cbn [snd].
              destruct (lower_spec cmp cmp_opp cmp_le_trans _ _ _ _ (leaf_sorted cmp _ _ _ _ _ Hs) El) as (Er & F1 & F2).
              destruct (in_split _ _ Hk) as (a & b & Eab).
              assert (Esp : l1 = a /\ l2 = (k1, v) :: b).
              { pose proof (leaf_sorted cmp _ _ _ _ _ Hs) as Hl. rewrite Eab in Hl, El. apply SS_app in Hl. destruct Hl as (_ & Hl & Hab). inversion Hl; subst.
                assert (W : forall q, Forall (fun r : rec => klt cmp (fst r) k1) a -> lower cmp k1 (a ++ (k1, v) :: q) = (a, (k1, v) :: q)).
                { intros q Fq. unfold lower. clear - Fq cmp_opp. induction Fq as [|[k0 v0] a F Fq IH]; cbn. - assert (ltb cmp k1 k1 = false) as -> by (apply (ltb_ge cmp cmp_opp); unfold kle; pose proof (cmp_opp k1 k1) as Wo; destruct (cmp k1 k1); cbn in Wo; congruence). reflexivity.
                  - cbn in F. assert (ltb cmp k0 k1 = true) as -> by (apply (ltb_lt cmp); exact F). rewrite IH. reflexivity. }
                rewrite W in El. - inversion El. auto. - apply Forall_forall. intros r Hr. apply (Hab r (k1, v)); auto. left; auto. }
              destruct Esp as [-> ->]. cbn [sure]. exists (abs (set_it s1 j (Some (k1, Some x))) (recs E1)). split; [|apply rel_abs; apply stands_it; auto].
              split; [eapply rel_moved; eauto|]. cbn [abs o_recs]. split; auto.
              assert (Hf : o_find cmp k1 (o_recs o) = Some (k1, v)).
              { rewrite <- HL1, EE, recs_mid, Eab. rewrite <- HL1 in *. rewrite EE, recs_mid, Eab in As1. rewrite <- app_assoc, app_assoc in As1 |- *. cbn [app] in *. rewrite o_find_app; auto.
                - cbn. pose proof (cmp_opp k1 k1) as Wo. destruct (cmp k1 k1); cbn in Wo; auto; discriminate.
                - apply SS_app in As1. destruct As1 as (_ & _ & As1). apply Forall_forall. intros r Hr. apply (As1 r (k1, v)); auto. left; auto. }
              unfold o_process, o_call. rewrite Hf. destruct (on_full p k1 v st) as [ac st1]. cbn. split; auto. }
          { apply it_key_none in I1. subst i. apply LOK. exists (abs (set_it s1 j None) (recs E1)). split; [|apply rel_abs; apply stands_it; auto; apply it_at_none]. split; [eapply rel_moved; eauto|]. cbn [abs o_recs]. auto. }
      + apply LOK. exists (abs s1 (recs E1)). split; [|apply rel_abs; exists E1; auto]. repeat split; auto. eapply rel_stay; eauto.
  Qed.

  Lemma read_sure : forall c s o st, rel s o -> ronly c = true -> sure (b_call c s st) (fun '(cd, s', st') => exists o', ostep cmp S c o st cd o' st' /\ rel s' o').
  Proof.
    intros c s o st R F. pose proof (proj1 R) as H. destruct H as (E & HI & HE). pose proof (asc_of s E HI) as As. pose proof (inv_len _ _ _ _ HI) as Hlen.
    assert (H : stands s (o_recs o)) by (exists E; auto). destruct c; cbn [ronly] in F; try discriminate; cbn [b_call ostep] in *.
    - apply negb_true_iff in F. subst w. pose proof (process_read cmp cmp_opp cmp_le_trans divp mrgp weight how max_branches level_max choose divp_two S s (o_recs o) k p st H) as W. rewrite W. cbn [bind sure]. exists o. split; [|exact R]. repeat split; auto. unfold o_process. destruct (o_call cmp (o_recs o) k p st); auto.
    - unfold it_first. rewrite <- (inv_first _ _ _ _ HI). eapply sure_bind; [|intros a Ha; exact Ha]. eapply sure_bind; [apply (pos_first_sure cmp _ [] E s HI Hlen)|]. intros i [I1 I2]. cbn [bind sure].
      exists (abs (set_it s j i) (recs E)). split; [|apply rel_abs; apply stands_it; auto]. repeat split; auto. rewrite <- HE. eapply rel_moved; eauto. apply kept_refl.
    - unfold it_last. rewrite <- (inv_last _ _ _ _ HI). assert (HI' := HI). rewrite <- (app_nil_r E) in HI'. pose proof (pos_last_sure cmp (b_fresh s) E [] s HI' Hlen) as W. rewrite app_nil_r in W. eapply sure_bind; [|intros a Ha; exact Ha]. eapply sure_bind; [exact W|]. intros i [I1 I2]. cbn [bind sure].
      exists (abs (set_it s j i) (recs E)). split; [|apply rel_abs; apply stands_it; auto]. repeat split; auto. rewrite <- HE. eapply rel_moved; eauto. apply kept_refl.
    - cbn. exists (abs (set_it s j (Some (k, None))) (recs E)). split; [|apply rel_abs; exists E; split; auto; apply set_it_inv; auto; right; intros; discriminate]. repeat split; auto. eapply rel_moved; eauto. apply kept_refl.
    - eapply sure_bind; [apply (jump_lower_sure cmp cmp_opp cmp_le_trans s E j k inclusive HI As)|]. intros s' (i & -> & I1 & I2). cbn [sure]. exists (abs (set_it s j i) (recs E)). split; [|apply rel_abs; apply stands_it; auto]. repeat split; auto. rewrite <- HE. eapply rel_moved; eauto. apply kept_refl.
    - eapply sure_bind; [apply (jump_upper_sure cmp cmp_opp cmp_le_trans s E j k inclusive HI As)|]. intros s' (i & -> & I1 & I2). cbn [sure]. exists (abs (set_it s j i) (recs E)). split; [|apply rel_abs; apply stands_it; auto]. repeat split; auto. rewrite <- HE. eapply rel_moved; eauto. apply kept_refl.
    - unfold it_next. rewrite <- (proj2 R). destruct (b_its s j) as [[k ox]|] eqn:Ei; cbn [it_key option_map fst].
      + eapply sure_bind; [|intros a Ha; exact Ha]. eapply sure_bind; [apply (next_sure cmp cmp_opp cmp_le_trans s E k ox HI)|].
        * intros x ->. eapply (i_its _ _ _ _ HI); eauto.
        * intros i [I1 I2]. cbn [bind sure]. exists (abs (set_it s j i) (recs E)). split; [|apply rel_abs; apply stands_it; auto]. repeat split; auto. rewrite <- HE. eapply rel_moved; eauto. apply kept_refl.
      + cbn. exists o. repeat split; auto. apply R.
    - unfold it_previous. rewrite <- (proj2 R). destruct (b_its s j) as [[k ox]|] eqn:Ei; cbn [it_key option_map fst].
      + eapply sure_bind; [|intros a Ha; exact Ha]. eapply sure_bind; [apply (prev_sure cmp cmp_opp cmp_le_trans s E k ox HI)|].
        * intros x ->. eapply (i_its _ _ _ _ HI); eauto.
        * intros i (I1 & I2 & I3). cbn [bind sure]. exists (abs (set_it s j i) (recs E)). split; [|apply rel_abs; apply stands_it; auto]. split; [auto|]. split; auto. split; auto. rewrite <- HE.
          destruct i as [[k1 ox1]|].
          { destruct (I1 k1 ox1 eq_refl) as (x & A & lo & rs & B & v & -> & EE & Hk). exists (Some (k1, v)). split; [eapply rel_moved; eauto; apply kept_refl|]. split; [exact I3|].
            intros k2 v2 W. inversion W; subst k2 v2. split; [|apply I2; reflexivity]. rewrite EE, recs_mid. apply in_or_app. right. apply in_or_app. left. exact Hk. }
          { exists None. split; [eapply rel_moved; eauto; apply kept_refl|]. split; [exact I3|]. intros; discriminate. }
      + cbn. exists o. repeat split; auto. apply R.
    - apply negb_true_iff in F. subst w. exact (it_process_ok j p false s o st R).
  Qed.

  Lemma call_ok : forall c s o st, rel s o -> fair c -> gives (b_call c s st) (fun '(cd, s', st') => exists o', ostep cmp S c o st cd o' st' /\ rel s' o').
  Proof.
    intros c s o st R F. pose proof (proj1 R) as H. destruct H as (E & HI & HE). pose proof (asc_of s E HI) as As. pose proof (inv_len _ _ _ _ HI) as Hlen.
    assert (H : stands s (o_recs o)) by (exists E; auto). destruct c; cbn [b_call ostep fair] in *.
    - eapply gives_bind; [apply (process_goes cmp cmp_opp cmp_le_trans divp mrgp weight how max_branches level_max choose divp_two); exact H|]. intros [s' st'] [[G1 G2] G3]. cbn. exists (abs s' (fst (o_process cmp (o_recs o) k p w st))). split; [|now apply rel_abs]. repeat split; auto. eapply rel_stay; eauto.
    - destruct baby.
      + eapply gives_bind; [apply gives_loose; apply append_goes; exact H|]. intros s' [G1 G2]. cbn [gives]. exists (abs s' (fst (o_process cmp (o_recs o) k (append_proc unit v d) true tt))). split; [|now apply rel_abs]. repeat split; auto. eapply rel_stay; eauto.
      + eapply gives_bind; [apply (process_goes cmp cmp_opp cmp_le_trans divp mrgp weight how max_branches level_max choose divp_two); exact H|]. intros [s' st'] [[G1 G2] G3]. cbn [gives].
        assert (Ep : o_process cmp (o_recs o) k (pr_append v d) true tt = o_process cmp (o_recs o) k (append_proc unit v d) true tt).
        { unfold o_process, o_call. cbn. destruct (o_find cmp k (o_recs o)) as [[k1 v1]|]; auto. destruct d; auto. }
        rewrite Ep in G1. exists (abs s' (fst (o_process cmp (o_recs o) k (append_proc unit v d) true tt))). split; [|now apply rel_abs]. repeat split; auto. eapply rel_stay; eauto.
    - eapply gives_bind; [apply (multi_goes cmp cmp_opp cmp_le_trans divp mrgp weight how max_branches level_max choose divp_two); exact H|]. intros [s' st'] [[G1 G2] G3]. cbn [gives]. exists (abs s' (fst (o_multi cmp (o_recs o) l w st))). split; [|now apply rel_abs]. repeat split; auto. eapply rel_stay; eauto.
    - eapply gives_bind; [apply (first_goes cmp cmp_opp cmp_le_trans divp mrgp weight how max_branches level_max choose divp_two); exact H|]. intros [[c s'] st'] G. cbn [gives]. assert (Hw : baby || w = w) by (destruct baby; auto; cbn; symmetry; auto).
      destruct (o_recs o) as [|[k v] L] eqn:EL.
      + destruct G as (-> & [G1 G2] & G3). exists (abs s' []). split; [|now apply rel_abs]. repeat split; auto. eapply rel_stay; eauto.
      + rewrite Hw in G. destruct G as (-> & [G1 G2] & G3). exists (abs s' (fst (o_process cmp ((k, v) :: L) k p w st))). split; [|now apply rel_abs]. repeat split; auto. eapply rel_stay; eauto.
    - eapply gives_bind; [apply (each_goes cmp cmp_opp cmp_le_trans divp mrgp weight how max_branches level_max choose divp_two); exact H|]. intros [s' st'] [[G1 G2] G3]. cbn [gives]. exists (abs s' (fst (o_each (o_recs o) p w st))). split; [|now apply rel_abs]. repeat split; auto. eapply rel_stay; eauto.
    - cbn. exists o_empty. split; [repeat split; auto|]. split; [apply stands_init|]. intros j. reflexivity.
    - apply sure_gives. exact (read_sure (KItFirst j) s o st R eq_refl).
    - apply sure_gives. exact (read_sure (KItLast j) s o st R eq_refl).
    - apply sure_gives. exact (read_sure (KItJump j k) s o st R eq_refl).
    - apply sure_gives. exact (read_sure (KItLower j k inclusive) s o st R eq_refl).
    - apply sure_gives. exact (read_sure (KItUpper j k inclusive) s o st R eq_refl).
    - apply sure_gives. exact (read_sure (KItNext j) s o st R eq_refl).
    - apply sure_gives. exact (read_sure (KItPrev j) s o st R eq_refl).
    - pose proof (it_process_ok j p w s o st R) as W. destruct w; [exact W|apply sure_gives; exact W].
  Qed.

  Lemma calls_ok : forall cs s o st, rel s o -> Forall fair cs -> gives (b_calls cs s st) (fun '(cds, s', st') => exists o', oruns cmp S cs o st cds o' st' /\ rel s' o').
  Proof.
    induction cs as [|c cs IH]; intros s o st R F; cbn [b_calls].
    - cbn. exists o. split; [constructor|exact R].
    - inversion F; subst. eapply gives_bind; [apply (call_ok c s o st R); auto|]. intros [[cd s1] st1] (o1 & O1 & R1). eapply gives_bind; [apply (IH s1 o1 st1 R1); auto|]. intros [[cds s2] st2] (o2 & O2 & R2). cbn. exists o2. split; auto. econstructor; eauto.
  Qed.
  Lemma rel_init : rel b_init o_empty. Proof. split; [apply stands_init|reflexivity]. Qed.
  Lemma rel_count : forall s o, rel s o -> b_num s = Z.of_nat (length (o_recs o)).
  Proof. intros s o [(E & H & HE) _]. rewrite (i_num _ _ _ _ H), HE. reflexivity. Qed.
  Lemma rel_asc : forall s o, rel s o -> ascending cmp (o_recs o).
  Proof. intros s o [(E & H & <-) _]. eapply asc_of; exact H. Qed.
End Hist.
