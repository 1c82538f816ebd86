(** Lemmas for IndexProps.v. *)
From Coq Require Import List NArith Bool Arith Lia Sorting.Sorted.
Import ListNotations.
From Verif Require Import Bytes BytesOrder DbmModel StatusModel OmapSpec OmapHist OmapFacts StrSerialModel StrSerialProofs SearchModel IndexModel IndexSpec.
Local Open Scope nat_scope.

Lemma find_map A B (f : B -> bool) (g : A -> B) l : find f (map g l) = option_map g (find (fun x => f (g x)) l).
Proof. induction l as [|x l IH]; cbn; auto. destruct (f (g x)); auto. Qed.
Lemma find_ext_in A (f h : A -> bool) l : (forall x, In x l -> f x = h x) -> find f l = find h l.
Proof. induction l as [|x l IH]; cbn; intros H; auto. rewrite <- (H x) by auto. destruct (f x); auto. Qed.
Lemma hd_map A B (g : A -> B) l : hd_error (map g l) = option_map g (hd_error l).
Proof. destruct l; reflexivity. Qed.

Lemma beqb_iff a b : beqb a b = true <-> a = b.
Proof. destruct (beqb_spec a b); split; congruence. Qed.

Section Facts.
  Variables (K V : Type) (plt : K * V -> K * V -> Prop).
  Notation A := (K * V)%type.
  Hypothesis irr : forall p, ~ plt p p.
  Hypothesis trans : forall p q r, plt p q -> plt q r -> plt p r.
  Hypothesis tot : forall p q, p = q \/ plt p q \/ plt q p.
  Notation SS := (StronglySorted plt).

  Lemma find_least P (f : A -> bool) M : SS M -> (forall q, In q M -> f q = true <-> P q) -> least plt P M (find f M).
  Proof.
    induction 1 as [|x M H IH F]; intros E; cbn; [intros q []|].
    destruct (f x) eqn:Ex.
    - cbn. split; [auto|]. split; [apply E; cbn; auto|]. intros q [->|Hq] _; auto. right. rewrite Forall_forall in F. auto.
    - assert (N : ~ P x) by (rewrite <- (E x (or_introl eq_refl)); congruence).
      specialize (IH (fun q Hq => E q (or_intror Hq))). unfold least in *. destruct (find f M) as [p|].
      + destruct IH as (I & Pp & L). split; [now right|]. split; auto. intros q [->|Hq] Pq; [contradiction|auto].
      + intros q [<-|Hq]; auto.
  Qed.
  Lemma SS_rev M : SS M -> StronglySorted (fun a b => plt b a) (rev M).
  Proof.
    induction 1 as [|x M H IH F]; cbn; [constructor|].
    assert (F' : Forall (fun y => plt x y) (rev M)) by (apply Forall_rev; exact F).
    clear -IH F'. induction IH as [|y l H IH' G]; cbn; [repeat constructor|].
    inversion F' as [|? ? Fy Fl]; subst. constructor; auto. apply Forall_app. split; auto.
  Qed.
  Lemma find_greatest P (f : A -> bool) M : SS M -> (forall q, In q M -> f q = true <-> P q) -> greatest plt P M (find f (rev M)).
  Proof.
    intros S E. pose proof (SS_rev _ S) as R.
    assert (E' : forall q, In q (rev M) -> f q = true <-> P q) by (intros q Hq; apply E, in_rev, Hq).
    assert (G : match find f (rev M) with
                | None => forall q, In q (rev M) -> ~ P q
                | Some p => In p (rev M) /\ P p /\ forall q, In q (rev M) -> P q -> q = p \/ plt q p end).
    { clear S E. induction R as [|x l H IH F]; cbn; [intros q []|]. destruct (f x) eqn:Ex.
      - split; [auto|]. split; [apply E'; cbn; auto|]. intros q [->|Hq] _; auto. right. rewrite Forall_forall in F. auto.
      - assert (N : ~ P x) by (rewrite <- (E' x (or_introl eq_refl)); congruence).
        specialize (IH (fun q Hq => E' q (or_intror Hq))). destruct (find f l) as [p|].
        + destruct IH as (I & Pp & L). split; [now right|]. split; auto. intros q [->|Hq] Pq; [contradiction|auto].
        + intros q [<-|Hq]; auto. }
    unfold greatest. destruct (find f (rev M)) as [p|].
    - destruct G as (I & Pp & L). split; [now apply in_rev|]. split; auto. intros q Hq. apply L. now apply in_rev in Hq.
    - intros q Hq. apply G. now apply in_rev in Hq.
  Qed.
  Lemma hd_least M : SS M -> least plt (fun _ => True) M (hd_error M).
  Proof. intros S. destruct M as [|x M]; cbn; [intros q []|]. inversion S; subst. rewrite Forall_forall in *. split; auto. split; auto. intros q [->|Hq] _; auto. Qed.
  Lemma last_greatest M : SS M -> greatest plt (fun _ => True) M (hd_error (rev M)).
  Proof.
    intros S. replace (hd_error (rev M)) with (find (fun _ => true) (rev M)) by (destruct (rev M); reflexivity).
    apply find_greatest; auto. tauto.
  Qed.
  Lemma SS_app_inv X Y : SS (X ++ Y) -> SS X /\ SS Y /\ (forall x y, In x X -> In y Y -> plt x y).
  Proof.
    induction X as [|a X IH]; cbn; intros H; [split; [constructor|split; auto; intros x y []]|].
    inversion H as [|? ? H1 F]; subst. destruct (IH H1) as (SX & SY & L). rewrite Forall_app in F. destruct F as [F1 F2].
    split; [constructor; auto|]. split; auto. intros x y [->|Hx] Hy; auto. rewrite Forall_forall in F2. auto.
  Qed.
  Lemma SS_NoDup M : SS M -> NoDup M.
  Proof. induction 1 as [|x M H IH F]; constructor; auto. intros I. rewrite Forall_forall in F. eapply irr, F, I. Qed.

  (** Values of a key: contiguous in the order. *)
  Variable keq : K -> K -> bool.
  Hypothesis keq_spec : forall a b, keq a b = true <-> a = b.
  Hypothesis contiguous : forall k v v' q, plt (k, v) q -> plt q (k, v') -> fst q = k.
  Fixpoint takek (k : K) (B : list A) : list V :=
    match B with [] => [] | q :: B' => if keq (fst q) k then snd q :: takek k B' else [] end.
  Lemma takek_in k B v : In v (takek k B) -> In (k, v) B.
  Proof.
    induction B as [|q B IH]; cbn; [auto|]. destruct (keq (fst q) k) eqn:Ek; [|intros []].
    apply keq_spec in Ek. intros [<-|H]; auto. left. destruct q. cbn in *. now subst.
  Qed.
  Lemma takek_spec k d M X B : SS M -> M = X ++ B -> (forall q, In q X -> plt q (k, d)) -> (forall q, In q B -> ~ plt q (k, d)) ->
    StronglySorted (fun a b => plt (k, a) (k, b)) (takek k B) /\ forall v, In v (takek k B) <-> In (k, v) M /\ ~ plt (k, v) (k, d).
  Proof.
    intros S E HX HB. assert (SB : SS B) by (subst; now apply SS_app_inv in S).
    pose proof (takek_in k B) as W.
    split.
    - clear HB E W.
      induction SB as [|q B SB IH F]; cbn; [constructor|]. destruct (keq (fst q) k) eqn:Ek; [|constructor].
      apply keq_spec in Ek. destruct q as [k1 v1]. cbn in Ek |- *. subst k1.
      constructor; [now apply IH|]. rewrite Forall_forall in *. intros v Hv. apply F, takek_in, Hv.
    - intros v. split.
      + intros Hv. specialize (W v Hv). split; [subst; apply in_or_app; now right|auto].
      + intros [I N]. rewrite E in I. apply in_app_or in I. destruct I as [I|I]; [exfalso; apply N, HX, I|].
        clear W E HX X S M. induction SB as [|q B SB IH F]; [destruct I|]. cbn. rewrite Forall_forall in F.
        destruct I as [->|I]; cbn.
        * assert (Ek : keq k k = true) by now apply keq_spec. rewrite Ek. now left.
        * assert (Eq : fst q = k).
          { destruct (tot q (k, d)) as [->|[L|L]]; auto; [exfalso; apply (HB q); cbn; auto|].
            eapply contiguous; [exact L|apply F, I]. }
          apply keq_spec in Eq. rewrite Eq. right. apply IH; auto. intros x Hx. apply HB. now right.
  Qed.
End Facts.

(** Insertion and removal, on sorted lists of pairs. *)
Section InsDel.
  Variables (K V : Type) (plt : K * V -> K * V -> Prop).
  Notation A := (K * V)%type.
  Hypothesis irr : forall p, ~ plt p p.
  Hypothesis trans : forall p q r, plt p q -> plt q r -> plt p r.
  Hypothesis tot : forall p q, p = q \/ plt p q \/ plt q p.
  Variables (D : A -> Prop) (ltb : A -> A -> bool).
  Hypothesis ltb_spec : forall p q, D p -> D q -> ltb p q = true <-> plt p q.
  Notation SS := (StronglySorted plt).
  Lemma same_spec p q : D p -> D q -> same_elem A ltb p q = true <-> p = q.
  Proof.
    intros Dp Dq. unfold same_elem. rewrite andb_true_iff, !negb_true_iff. split.
    - intros [H1 H2]. destruct (tot p q) as [->|[L|L]]; auto; apply ltb_spec in L; auto; congruence.
    - intros <-. destruct (ltb p p) eqn:E; auto. apply ltb_spec in E; auto. now apply irr in E.
  Qed.
  Lemma ins_spec p M : D p -> Forall D M -> SS M ->
    SS (set_emplace A ltb p M) /\ (forall q, In q (set_emplace A ltb p M) <-> q = p \/ In q M).
  Proof.
    intros Dp DM S. revert DM. induction S as [|x M S IH F]; intros DM; cbn; [split; [repeat constructor|]; intros q; intuition|].
    inversion DM as [|? ? Dx DM']; subst. destruct (IH DM') as [I1 I2]. destruct (ltb p x) eqn:E1.
    - apply ltb_spec in E1; auto. split; [|cbn; intros q; intuition]. constructor; [constructor; auto|]. constructor; auto.
      rewrite Forall_forall in *. intros y Hy. eapply trans; eauto.
    - destruct (ltb x p) eqn:E2.
      + apply ltb_spec in E2; auto. split; [|cbn; intros q; rewrite I2; intuition]. constructor; auto.
        rewrite Forall_forall in *. intros y Hy. apply I2 in Hy. destruct Hy as [->|Hy]; auto.
      + assert (p = x) by (apply same_spec; auto; unfold same_elem; now rewrite E1, E2). subst x.
        split; [now constructor|]. cbn. intros q. intuition.
  Qed.
  Lemma filter_SS (f : A -> bool) M : SS M -> SS (filter f M).
  Proof.
    induction 1 as [|x M S IH F]; cbn; [constructor|]. destruct (f x); auto. constructor; auto.
    rewrite Forall_forall in *. intros y Hy. apply filter_In in Hy. now apply F.
  Qed.
  Lemma erase_spec p M : D p -> Forall D M -> SS M ->
    SS (set_erase A ltb p M) /\ (forall q, In q (set_erase A ltb p M) <-> In q M /\ q <> p).
  Proof.
    intros Dp DM S. split; [now apply filter_SS|]. intros q. unfold set_erase. rewrite filter_In.
    rewrite Forall_forall in DM. split; intros [I N]; split; auto.
    - intros ->. rewrite (proj2 (same_spec p p Dp Dp) eq_refl) in N. discriminate.
    - destruct (same_elem A ltb p q) eqn:E; auto. apply same_spec in E; auto; congruence.
  Qed.
  Lemma erase_none p M : (forall q, In q M -> same_elem A ltb p q = false) -> set_erase A ltb p M = M.
  Proof. unfold set_erase. induction M as [|x M IH]; cbn; intros H; auto. rewrite H by auto. cbn. f_equal. auto. Qed.
  Lemma from_bound_split p M : D p -> Forall D M -> SS M ->
    exists X, M = X ++ from_bound A ltb p M /\ (forall q, In q X -> plt q p) /\ (forall q, In q (from_bound A ltb p M) -> ~ plt q p) /\
      find (fun y => negb (ltb y p)) M = hd_error (from_bound A ltb p M).
  Proof.
    intros Dp DM S. revert DM. unfold from_bound. induction S as [|x M S IH F]; intros DM; cbn.
    - exists []. repeat split; auto; intros q [].
    - inversion DM as [|? ? Dx DM']; subst. destruct (IH DM') as (X & E & H1 & H2 & H3). destruct (ltb x p) eqn:Ex; cbn.
      + exists (x :: X). cbn. rewrite <- E. split; auto. split; [|split; auto]. intros q [<-|Hq]; auto. apply ltb_spec; auto.
      + assert (Nx : ~ plt x p) by (intros L; apply ltb_spec in L; auto; congruence).
        assert (EM : filter (fun y => negb (ltb y p)) M = M).
        { clear -DM' Nx F trans Dp ltb_spec. induction M as [|y M IH]; cbn; auto. inversion F; inversion DM'; subst.
          destruct (ltb y p) eqn:Ey; cbn; [|f_equal; auto]. apply ltb_spec in Ey; auto. exfalso. apply Nx. eapply trans; eauto. }
        exists []. cbn. rewrite EM. split; auto. split; [intros q []|]. split; auto. intros q [<-|Hq]; auto. rewrite <- EM in Hq. auto.
  Qed.
End InsDel.

(** The std::set ones. *)
Section Std.
  Variables (K V T : Type) (lt : T -> T -> bool) (mk : K -> V -> T) (un : T -> option (K * V)) (dflt : V) (keq : K -> K -> bool).
  Variables (plt : K * V -> K * V -> Prop) (D : K * V -> Prop).
  Notation A := (K * V)%type.
  Hypothesis irr : forall p, ~ plt p p.
  Hypothesis trans : forall p q r, plt p q -> plt q r -> plt p r.
  Hypothesis tot : forall p q, p = q \/ plt p q \/ plt q p.
  Hypothesis keq_spec : forall a b, keq a b = true <-> a = b.
  Hypothesis contiguous : forall k v v' q, plt (k, v) q -> plt q (k, v') -> fst q = k.
  Hypothesis lt_spec : forall a b c d, D (a, b) -> D (c, d) -> lt (mk a b) (mk c d) = true <-> plt (a, b) (c, d).
  Hypothesis un_spec : forall a b, D (a, b) -> un (mk a b) = Some (a, b).
  Definition g (p : A) : T := mk (fst p) (snd p).
  Definition ltb (p q : A) : bool := lt (g p) (g q).
  Definition call_dom (c : icall K V) : Prop :=
    match c with IAdd k v | IRemove k v | ICheck k v | IJump _ k v => D (k, v) | IValues k _ => D (k, dflt) | _ => True end.
  Definition srel (s : sidx T) (i : ist K V) : Prop :=
    si_recs T s = map g (i_pairs i) /\ Forall D (i_pairs i) /\ sorted plt i /\
    (forall j, si_its T s j = option_map g (i_pos i j)) /\ (forall j p, i_pos i j = Some p -> In p (i_pairs i)).
  Lemma ltb_spec p q : D p -> D q -> ltb p q = true <-> plt p q.
  Proof. destruct p, q. apply lt_spec. Qed.
  Lemma emplace_map p M : set_emplace T lt (g p) (map g M) = map g (set_emplace A ltb p M).
  Proof. induction M as [|x M IH]; cbn; auto. fold (ltb p x) (ltb x p). destruct (ltb p x), (ltb x p); cbn; auto. now rewrite IH. Qed.
  Lemma filter_map_g (f : T -> bool) M : filter f (map g M) = map g (filter (fun x => f (g x)) M).
  Proof. induction M as [|x M IH]; cbn; auto. destruct (f (g x)); cbn; now rewrite IH. Qed.
  Lemma si_loop_map k max B m : Forall D B ->
    si_loop K V T un keq k max (map g B) m = Some (m ++ match max with 0 => takek K V keq k B | _ => firstn (max - length m) (takek K V keq k B) end).
  Proof.
    intros DB. revert m. induction DB as [|q B Dq DB IH]; intros m; cbn [map si_loop takek].
    - destruct max; cbn; [|rewrite firstn_nil]; now rewrite app_nil_r.
    - destruct q as [k1 v1]. unfold g at 1. cbn [fst snd]. rewrite un_spec by auto. destruct max as [|n].
      + cbn [Nat.ltb Nat.leb andb]. destruct (keq k1 k); [|now rewrite app_nil_r]. rewrite IH. now rewrite <- app_assoc.
      + destruct (Nat.leb_spec (S n) (length m)).
        * cbn [Nat.ltb Nat.leb andb]. replace (S n - length m) with 0 by lia. cbn. now rewrite app_nil_r.
        * change ((0 <? S n) && false) with false. cbn [andb]. destruct (keq k1 k).
          -- rewrite IH. rewrite <- app_assoc. rewrite app_length. cbn [length]. replace (S n - length m) with (S (S n - (length m + 1))) by lia. reflexivity.
          -- rewrite firstn_nil. now rewrite app_nil_r.
  Qed.
  Lemma move_rel s i j r : srel s i -> (forall p, r = Some p -> In p (i_pairs i)) ->
    srel (si_move T s j (option_map g r)) (mkI (i_pairs i) (fun n => if n =? j then r else i_pos i n)).
  Proof.
    intros (E & DM & S & P & I) H. split; [exact E|]. split; [exact DM|]. split; [exact S|]. cbn. split.
    - intros n. destruct (n =? j); auto.
    - intros n p. destruct (n =? j); auto. apply I.
  Qed.
  Lemma goes_move (s : ist K V) j r (P : option A -> Prop) : P r -> goes s (mkI (i_pairs s) (fun n => if n =? j then r else i_pos s n)) j P.
  Proof. intros H. split; [reflexivity|]. split; [cbn; now rewrite Nat.eqb_refl|]. intros i N. cbn. destruct (Nat.eqb_spec i j); congruence. Qed.
  Lemma find_g p M : set_find T lt (g p) (map g M) = option_map g (find (same_elem A ltb p) M).
  Proof. unfold set_find. rewrite find_map. reflexivity. Qed.
  Lemma least_in P M r p : least plt P M r -> r = Some p -> In p M.
  Proof. intros H ->. apply H. Qed.
  Lemma greatest_in P M r p : greatest plt P M r -> r = Some p -> In p M.
  Proof. intros H ->. apply H. Qed.
  Lemma unch (s : ist K V) : unchanged s s.
  Proof. split; [reflexivity|]. intros j. reflexivity. Qed.
  Lemma std_step c s i : srel s i -> call_dom c ->
    exists i', std_spec plt dflt c i (fst (si_step K V T lt mk un dflt keq c s)) i' /\ srel (snd (si_step K V T lt mk un dflt keq c s)) i'.
  Proof.
    intros R Dc. pose proof R as (E & DM & SM & P & I).
    assert (DM' : forall q, In q (i_pairs i) -> D q) by now apply Forall_forall.
    assert (SameL : forall p, D p -> forall q, In q (i_pairs i) -> same_elem A ltb p q = true <-> p = q).
    { intros p Dp q Hq. eapply same_spec; eauto using ltb_spec. }
    assert (Keep : std_spec plt dflt c i (fst (si_step K V T lt mk un dflt keq c s)) i ->
              snd (si_step K V T lt mk un dflt keq c s) = s ->
              exists i', std_spec plt dflt c i (fst (si_step K V T lt mk un dflt keq c s)) i' /\ srel (snd (si_step K V T lt mk un dflt keq c s)) i').
    { intros H1 H2. exists i. rewrite H2. auto. }
    destruct c as [k v|k v|k v|k max| | |j|j|j k v|j|j|j]; cbn [call_dom] in Dc.
    - (* Add *) destruct (ins_spec K V plt irr trans tot D ltb ltb_spec (k, v) (i_pairs i) Dc DM SM) as [S' I'].
      exists (mkI (set_emplace A ltb (k, v) (i_pairs i)) (i_pos i)). cbn [si_step fst snd].
      assert (R' : srel (mkS T (set_emplace T lt (mk k v) (si_recs T s)) (si_its T s)) (mkI (set_emplace A ltb (k, v) (i_pairs i)) (i_pos i))).
      { split; [cbn; rewrite E; apply (emplace_map (k, v))|]. cbn. split.
        - apply Forall_forall. intros q Hq. apply I' in Hq. destruct Hq as [->|]; auto.
        - split; [exact S'|]. split; auto. intros j p Hp. apply I'. right. eauto. }
      split; [|exact R']. split; [exact S'|]. split; [apply R'|]. repeat split; auto; apply I'.
    - (* Remove *) cbn [si_step]. rewrite E. change (mk k v) with (g (k, v)). rewrite find_g.
      destruct (find (same_elem A ltb (k, v)) (i_pairs i)) as [x|] eqn:Ef; cbn [option_map fst snd].
      + apply find_some in Ef. destruct Ef as [Ix Ex]. apply SameL in Ex; auto. subst x.
        destruct (erase_spec K V plt irr tot D ltb ltb_spec (k, v) (i_pairs i) Dc DM SM) as [S' I'].
        set (pos := fun j => match i_pos i j with Some q => if same_elem A ltb q (k, v) then find (fun y => ltb (k, v) y) (i_pairs i) else Some q | None => None end).
        assert (L : least plt (plt (k, v)) (i_pairs i) (find (fun y => ltb (k, v) y) (i_pairs i))).
        { apply find_least; auto. intros q Hq. apply ltb_spec; auto. }
        exists (mkI (set_erase A ltb (k, v) (i_pairs i)) pos).
        assert (PIn : forall j p, pos j = Some p -> In p (set_erase A ltb (k, v) (i_pairs i))).
        { intros j p Hp. apply I'. unfold pos in Hp. destruct (i_pos i j) as [q|] eqn:Eq; [|discriminate].
          destruct (same_elem A ltb q (k, v)) eqn:Es.
          - rewrite Hp in L. destruct L as (L1 & L2 & _). split; auto. intros ->. now apply irr in L2.
          - injection Hp as <-. split; [eauto|]. intros ->. rewrite (proj2 (SameL (k, v) Dc _ Ix) eq_refl) in Es. discriminate. }
        split.
        * split; [exact S'|]. split; [exact PIn|]. split; auto. split; [exact I'|]. intros j. cbn. unfold pos. split.
          -- intros ->. rewrite (proj2 (SameL (k, v) Dc _ Ix) eq_refl). exact L.
          -- intros N. destruct (i_pos i j) as [q|] eqn:Eq; auto. destruct (same_elem A ltb q (k, v)) eqn:Es; auto.
             apply SameL in Es; eauto. congruence.
        * split; [cbn; unfold set_erase; rewrite filter_map_g; reflexivity|]. cbn. split.
          { apply Forall_forall. intros q Hq. apply I' in Hq. apply DM'. tauto. }
          split; [exact S'|]. split; [|exact PIn]. intros j. rewrite P. unfold pos. destruct (i_pos i j) as [q|]; cbn; auto.
          change (same_elem T lt (g q) (g (k, v))) with (same_elem A ltb q (k, v)). destruct (same_elem A ltb q (k, v)); auto.
          unfold succ_elem. rewrite find_map. reflexivity.
      + exists i. split; [|exact R]. split; auto. split; auto. split; auto.
        assert (N : ~ In (k, v) (i_pairs i)).
        { intros Hi. pose proof (find_none _ _ Ef _ Hi) as W. rewrite (proj2 (SameL _ Dc _ Hi) eq_refl) in W. discriminate. }
        split; [intros p; split; [intros Hp; split; auto; intros ->; auto|tauto]|].
        intros j. split; auto. intros Hj. exfalso. eauto.
    - (* Check *) apply Keep; auto. split; auto. split; auto. split; [|apply unch]. cbn [si_step fst]. rewrite E. change (mk k v) with (g (k, v)). rewrite find_g.
      eexists. split; [reflexivity|]. destruct (find (same_elem A ltb (k, v)) (i_pairs i)) as [x|] eqn:Ef; cbn.
      + apply find_some in Ef. destruct Ef as [Ix Ex]. apply SameL in Ex; auto. subst x. tauto.
      + split; [discriminate|]. intros Hi. pose proof (find_none _ _ Ef _ Hi) as W. rewrite (proj2 (SameL _ Dc _ Hi) eq_refl) in W. discriminate.
    - (* Values *) apply Keep; auto. split; auto. split; auto. split; [|apply unch]. cbn [si_step fst]. rewrite E.
      unfold from_bound. rewrite filter_map_g. change (filter (fun x => negb (lt (g x) (mk k dflt))) (i_pairs i)) with (from_bound A ltb (k, dflt) (i_pairs i)).
      destruct (from_bound_split K V plt trans D ltb ltb_spec (k, dflt) (i_pairs i) Dc DM SM) as (X & EM & H1 & H2 & _).
      rewrite si_loop_map by (rewrite EM in DM; apply Forall_app in DM; tauto).
      eexists. split; [reflexivity|]. exists (takek K V keq k (from_bound A ltb (k, dflt) (i_pairs i))).
      destruct (takek_spec K V plt tot keq keq_spec contiguous k dflt _ _ _ SM EM H1 H2) as [T1 T2].
      split; auto. split; auto. cbn [app length]. destruct max; auto.
    - (* Count *) apply Keep; auto. split; auto. split; auto. split; [|apply unch]. cbn [si_step fst]. now rewrite E, map_length.
    - (* Clear *) exists (mkI [] (fun _ => None)). cbn [si_step fst snd]. split.
      + split; [constructor|]. split; [discriminate|]. auto.
      + split; auto. cbn. split; auto. split; [constructor|]. split; auto. discriminate.
    - (* First *) pose proof (hd_least K V plt (i_pairs i) SM) as L. cbn [si_step fst snd]. rewrite E, hd_map.
      pose proof (move_rel s i j _ R (fun p => least_in _ _ _ p L)) as R'. eexists. split; [|exact R'].
      split; [apply R'|]. split; [apply R'|]. split; auto. now apply goes_move.
    - (* Last *) pose proof (last_greatest K V plt (i_pairs i) SM) as L. cbn [si_step fst snd]. unfold last_elem. rewrite E, <- map_rev, hd_map.
      pose proof (move_rel s i j _ R (fun p => greatest_in _ _ _ p L)) as R'. eexists. split; [|exact R'].
      split; [apply R'|]. split; [apply R'|]. split; auto. now apply goes_move.
    - (* Jump *) cbn [si_step fst snd]. unfold lower_bound. rewrite E, find_map.
      assert (L : least plt (fun x => ~ plt x (k, v)) (i_pairs i) (find (fun x => negb (lt (g x) (mk k v))) (i_pairs i))).
      { apply find_least; auto. intros q Hq. rewrite negb_true_iff. change (lt (g q) (mk k v)) with (ltb q (k, v)).
        pose proof (ltb_spec q (k, v) (DM' _ Hq) Dc) as W. destruct (ltb q (k, v)); [|intuition congruence]. split; [discriminate|]. intros N. exfalso. tauto. }
      pose proof (move_rel s i j _ R (fun p => least_in _ _ _ p L)) as R'. eexists. split; [|exact R'].
      split; [apply R'|]. split; [apply R'|]. split; auto. now apply goes_move.
    - (* Next *) cbn [si_step fst snd]. rewrite P. destruct (i_pos i j) as [x|] eqn:Ex; cbn [option_map].
      + unfold succ_elem. rewrite E, find_map.
        assert (L : least plt (plt x) (i_pairs i) (find (fun y => lt (g x) (g y)) (i_pairs i))).
        { apply find_least; auto. intros q Hq. apply ltb_spec; eauto. }
        pose proof (move_rel s i j _ R (fun p => least_in _ _ _ p L)) as R'. eexists. split; [|exact R'].
        split; [apply R'|]. split; [apply R'|]. split; auto. rewrite Ex. now apply goes_move.
      + exists i. split; [|exact R]. split; auto. split; auto. split; auto. rewrite Ex. apply unch.
    - (* Previous *) cbn [si_step fst snd]. rewrite P, E, hd_map.
      destruct (i_pos i j) as [x|] eqn:Ex; cbn [option_map it_eq].
      + assert (L : greatest plt (fun y => plt y x) (i_pairs i) (find (fun y => ltb y x) (rev (i_pairs i)))).
        { apply find_greatest; auto. intros q Hq. apply ltb_spec; eauto. }
        assert (Ep : (if match option_map g (hd_error (i_pairs i)) with Some y => same_elem T lt (g x) y | None => false end
                      then si_move T s j None else si_move T s j (pred_elem T lt (g x) (map g (i_pairs i)))) =
                     si_move T s j (option_map g (find (fun y => ltb y x) (rev (i_pairs i))))).
        { unfold pred_elem. rewrite <- map_rev, find_map. destruct (i_pairs i) as [|y M] eqn:EM; cbn [hd_error option_map]; [reflexivity|].
          change (same_elem T lt (g x) (g y)) with (same_elem A ltb x y). destruct (same_elem A ltb x y) eqn:Es; auto.
          apply SameL in Es; [|eauto|now left]. subst y.
          destruct (find (fun y => ltb y x) (rev (x :: M))) as [z|]; [|reflexivity]. exfalso.
          destruct L as (L1 & L2 & _). unfold sorted in SM. rewrite EM in SM. inversion SM as [|? ? _ F]; subst.
          destruct L1 as [->|L1]; [now apply irr in L2|]. rewrite Forall_forall in F. eapply irr, trans; [exact L2|auto]. }
        rewrite Ep. pose proof (move_rel s i j _ R (fun p => greatest_in _ _ _ p L)) as R'. eexists. split; [|exact R'].
        split; [apply R'|]. split; [apply R'|]. split; auto. rewrite Ex. now apply goes_move.
      + pose proof (last_greatest K V plt (i_pairs i) SM) as L.
        assert (Ep : (if match option_map g (hd_error (i_pairs i)) with Some _ => false | None => true end
                      then si_move T s j None else si_move T s j (last_elem T (map g (i_pairs i)))) =
                     si_move T s j (option_map g (hd_error (rev (i_pairs i))))).
        { unfold last_elem. rewrite <- map_rev, hd_map. destruct (i_pairs i) as [|y M]; reflexivity. }
        rewrite Ep. pose proof (move_rel s i j _ R (fun p => greatest_in _ _ _ p L)) as R'. eexists. split; [|exact R'].
        split; [apply R'|]. split; [apply R'|]. split; auto. rewrite Ex. now apply goes_move.
    - (* Get *) apply Keep; auto. split; auto. split; auto. split; [|apply unch]. cbn [si_step fst]. rewrite P.
      destruct (i_pos i j) as [[a b]|] eqn:Ex; cbn [option_map]; auto. unfold g. cbn [fst snd]. rewrite un_spec; eauto.
  Qed.
  Lemma std_runs : forall cs s i, srel s i -> Forall call_dom cs ->
    exists i', spec_runs (std_spec plt dflt) cs i (fst (si_runs K V T lt mk un dflt keq cs s)) i' /\ srel (snd (si_runs K V T lt mk un dflt keq cs s)) i'.
  Proof.
    induction cs as [|c cs IH]; intros s i R H; cbn [si_runs].
    - exists i. split; [constructor|exact R].
    - inversion H; subst. destruct (std_step c s i R) as (i1 & S1 & R1); auto.
      destruct (si_step K V T lt mk un dflt keq c s) as [r s1]. cbn [fst snd] in S1, R1.
      destruct (IH s1 i1 R1) as (i2 & S2 & R2); auto. destruct (si_runs K V T lt mk un dflt keq cs s1) as [rs s2]. cbn [fst snd] in *.
      exists i2. split; [econstructor; eauto|exact R2].
  Qed.
End Std.

(** The ones over an ordered database. *)
Section Db.
  Variables (cmp kc : bytes -> bytes -> comparison).
  Hypothesis cmp_opp : forall a b, cmp b a = CompOpp (cmp a b).
  Hypothesis cmp_le_trans : forall a b c, cmp a b <> Gt -> cmp b c <> Gt -> cmp a c <> Gt.
  Hypothesis kc_eq : forall a b, kc a b = Eq <-> a = b.
  Hypothesis kc_opp : forall a b, kc b a = CompOpp (kc a b).
  Hypothesis kc_trans : forall a b c, kc a b = Lt -> kc b c = Lt -> kc a c = Lt.
  Notation A := (bytes * bytes)%type.
  Definition pcmp (p q : A) : comparison := match kc (fst p) (fst q) with Eq => bcmp (snd p) (snd q) | r => r end.
  Definition pltc (p q : A) : Prop := pcmp p q = Lt.
  Definition small (p : A) : Prop := (blen (fst p) < two64)%N /\ (blen (snd p) < two64)%N.
  Definition ser (p : A) : bytes := serialize_pair (fst p) (snd p).
  Hypothesis agree : forall p q, small p -> small q -> cmp (ser p) (ser q) = pcmp p q.
  Definition rec (p : A) : A := (ser p, []).

  Lemma pcmp_opp p q : pcmp q p = CompOpp (pcmp p q).
  Proof. unfold pcmp. rewrite (kc_opp (fst p) (fst q)). destruct (kc (fst p) (fst q)); cbn; auto. apply bcmp_opp. Qed.
  Lemma pcmp_eq p q : pcmp p q = Eq <-> p = q.
  Proof.
    unfold pcmp. destruct p as [a b], q as [c d]. cbn. split.
    - destruct (kc a c) eqn:E; try discriminate. apply kc_eq in E. subst. intros H. apply bcmp_eq in H. now subst.
    - intros [= -> ->]. rewrite (proj2 (kc_eq c c) eq_refl). apply bcmp_refl.
  Qed.
  Lemma pirr p : ~ pltc p p.
  Proof. unfold pltc. rewrite (proj2 (pcmp_eq p p) eq_refl). discriminate. Qed.
  Lemma ptot p q : p = q \/ pltc p q \/ pltc q p.
  Proof. unfold pltc. rewrite (pcmp_opp p q). destruct (pcmp p q) eqn:E; auto. left. now apply pcmp_eq. Qed.
  Lemma ptrans p q r : pltc p q -> pltc q r -> pltc p r.
  Proof.
    unfold pltc, pcmp. destruct p as [a b], q as [c d], r as [e f]. cbn.
    destruct (kc a c) eqn:E1; try discriminate; destruct (kc c e) eqn:E2; try discriminate; intros H1 H2.
    - apply kc_eq in E1, E2. subst. rewrite (proj2 (kc_eq e e) eq_refl). eapply blt_trans; eauto.
    - apply kc_eq in E1. subst. now rewrite E2.
    - apply kc_eq in E2. subst. now rewrite E1.
    - now rewrite (kc_trans _ _ _ E1 E2).
  Qed.
  Lemma pcontig k v v' q : pltc (k, v) q -> pltc q (k, v') -> fst q = k.
  Proof.
    unfold pltc, pcmp. cbn. rewrite (kc_opp k (fst q)). destruct (kc k (fst q)) eqn:E; cbn; try discriminate. intros _ _. symmetry. now apply kc_eq.
  Qed.
  Definition dltb (p q : A) : bool := less cmp (ser p) (ser q).
  Lemma dltb_spec p q : small p -> small q -> dltb p q = true <-> pltc p q.
  Proof. intros H1 H2. unfold dltb, less, pltc. rewrite agree by auto. destruct (pcmp p q); split; congruence. Qed.
  Lemma same_d p q : same_elem A dltb p q = match cmp (ser p) (ser q) with Eq => true | _ => false end.
  Proof. unfold same_elem, dltb, less. rewrite (cmp_opp (ser p) (ser q)). destruct (cmp (ser p) (ser q)); reflexivity. Qed.
  Lemma o_find_rec p M : o_find cmp (ser p) (map rec M) = option_map rec (find (same_elem A dltb p) M).
  Proof. induction M as [|q M IH]; cbn; auto. rewrite same_d. destruct (cmp (ser p) (ser q)); auto. Qed.
  Lemma o_put_rec p M : o_put cmp (ser p) [] (map rec M) = map rec (set_emplace A dltb p M).
  Proof.
    induction M as [|q M IH]; cbn; auto. unfold dltb, less. rewrite (cmp_opp (ser p) (ser q)). destruct (cmp (ser p) (ser q)); cbn; auto. now rewrite IH.
  Qed.
  Lemma o_del_rec p M : small p -> Forall small M -> StronglySorted pltc M -> o_del cmp (ser p) (map rec M) = map rec (set_erase A dltb p M).
  Proof.
    intros Sp SM H. revert SM. induction H as [|q M H IH F]; intros SM; cbn; auto. inversion SM; subst. rewrite same_d. destruct (cmp (ser p) (ser q)) eqn:E; cbn [negb map].
    - fold (set_erase A dltb p M). rewrite erase_none; auto. rewrite Forall_forall in *. intros x Hx. specialize (F x Hx). rewrite agree in E by auto. apply pcmp_eq in E. subst q.
      rewrite same_d, agree; auto. unfold pltc in F. now rewrite F.
    - f_equal. auto.
    - f_equal. auto.
  Qed.
  Lemma o_ge_rec p M : o_ge cmp (ser p) (map rec M) = option_map rec (find (fun y => negb (dltb y p)) M).
  Proof. unfold o_ge. rewrite find_map. reflexivity. Qed.
  Lemma o_gt_rec p M : o_gt cmp (ser p) (map rec M) = option_map rec (find (fun y => dltb p y) M).
  Proof. unfold o_gt. rewrite find_map. reflexivity. Qed.
  Lemma o_lt_rec p M : o_lt cmp (ser p) (map rec M) = option_map rec (find (fun y => dltb y p) (rev M)).
  Proof. unfold o_lt. rewrite <- map_rev, find_map. reflexivity. Qed.
  Lemma at_rec r : at_key (option_map rec r) = option_map ser r.
  Proof. destruct r; reflexivity. Qed.
  Lemma asc_rec M : Forall small M -> StronglySorted pltc M -> ascending cmp (map rec M).
  Proof.
    intros SM H. revert SM. induction H as [|q M H IH F]; intros SM; cbn; constructor; inversion SM; subst; [apply IH; auto|].
    rewrite Forall_forall in *. intros x Hx. apply in_map_iff in Hx. destruct Hx as (y & <- & Hy). cbn. rewrite agree; auto. apply F, Hy.
  Qed.
  Lemma des p : small p -> deserialize_pair (ser p) = Some p.
  Proof. intros [H1 H2]. unfold ser. rewrite pair_round by auto. now destruct p. Qed.
  Lemma get_rec o j cd o1 x M : o_recs o = map rec M -> ostep cmp bytes (KItProcess j get_key false) o [] cd o1 x ->
    o_recs o1 = o_recs o /\
    match o_pos o j with
    | None => cd = NOT_FOUND_ERROR /\ stay o o1
    | Some k => moved o o1 j (at_key (o_ge cmp k (map rec M))) /\
        match o_ge cmp k (map rec M) with None => cd = NOT_FOUND_ERROR | Some r => cd = SUCCESS /\ exists q, In q M /\ r = rec q /\ (cmp (ser q) (ser q) = Eq -> StronglySorted pltc M -> Forall small M -> x = ser q) end
    end.
  Proof.
    intros E H. cbn [ostep] in H. rewrite E in H. destruct (o_pos o j) as [k|].
    - destruct H as [Mv H]. destruct (o_ge cmp k (map rec M)) as [[k1 v1]|] eqn:G.
      + destruct H as (-> & E1 & E2). split; [rewrite E1; unfold o_process; destruct (o_call cmp (map rec M) k1 get_key []); cbn; now symmetry|]. split; auto.
        unfold o_ge in G. apply find_some in G. destruct G as [G _]. apply in_map_iff in G. destruct G as (q & Eq & Hq). inversion Eq; subst.
        split; auto. exists q. split; auto. split; auto. intros Er SS SM. unfold o_process, o_call.
        destruct (in_split _ _ Hq) as (X & Y & ->). rewrite map_app. cbn [map rec]. unfold rec at 2.
        rewrite (find_mid cmp cmp_opp) by (pose proof (asc_rec _ SM SS) as W; rewrite map_app in W; exact W). reflexivity.
      + destruct H as (-> & E1 & E2). split; [congruence|]. auto.
    - destruct H as (-> & E1 & E2 & St). split; [congruence|]. auto.
  Qed.
  Notation beq := beqb.
  Definition tk := takek bytes bytes beq.
  Lemma loop_sound key max o m out o2 : values_loop cmp key max o m out o2 -> forall M X B, o_recs o = map rec M -> M = X ++ B ->
    Forall small M -> StronglySorted pltc M ->
    match o_pos o 0 with None => B = [] | Some x => o_ge cmp x (map rec M) = hd_error (map rec B) end ->
    out = Some (m ++ match max with 0 => tk key B | _ => firstn (max - length m) (tk key B) end) /\ o_recs o2 = o_recs o /\
    forall j, o_pos o2 (S j) = o_pos o (S j).
  Proof.
    assert (MV : forall o o1 r, moved o o1 0 r -> forall j, o_pos o1 (S j) = o_pos o (S j)) by (intros o0 o1 r H j; apply (H (S j))).
    induction 1 as [o m H1 H2|o m o1 x cd H1 H2 H3|o m o1 rc H1 H2 H3|o m o1 rc rk rv H1 H2 H3 H4|o m o1 rc rv cd o2 x out o3 H1 H2 H3 H4 H5 IH];
      intros M X B E EM SM SS HB.
    - split; auto. destruct max as [|n]; [lia|]. replace (S n - length m) with 0 by lia. cbn. now rewrite app_nil_r.
    - destruct (get_rec _ _ _ _ _ _ E H2) as [R W]. destruct (o_pos o 0) as [k|].
      + destruct W as [Mv W]. rewrite HB in W. destruct B as [|q B]; cbn [map hd_error] in W; [|destruct W; congruence].
        split; [destruct max; cbn; [|rewrite firstn_nil]; now rewrite app_nil_r|]. split; auto. eapply MV, Mv.
      + destruct W as [_ St]. subst B. split; [destruct max; cbn; [|rewrite firstn_nil]; now rewrite app_nil_r|]. split; auto.
    - exfalso. destruct (get_rec _ _ _ _ _ _ E H2) as [R W]. destruct (o_pos o 0) as [k|]; [|destruct W; discriminate].
      destruct W as [Mv W]. rewrite HB in W. destruct B as [|q B]; cbn [map hd_error] in W; [discriminate|].
      destruct W as (_ & q' & Hq & Eq & W). rewrite W, des in H3; auto; [discriminate| |apply (cmp_same cmp cmp_opp)]. rewrite Forall_forall in SM. auto.
    - destruct (get_rec _ _ _ _ _ _ E H2) as [R W]. destruct (o_pos o 0) as [k|]; [|destruct W; discriminate].
      destruct W as [Mv W]. rewrite HB in W. destruct B as [|q B]; cbn [map hd_error] in W; [discriminate|].
      destruct W as (_ & q' & Hq & Eq & W). assert (Sq' : small q') by (rewrite Forall_forall in SM; auto).
      assert (Sq : small q) by (rewrite EM in SM; apply Forall_app in SM; destruct SM as [_ SM]; now inversion SM).
      assert (q' = q). { unfold rec in Eq. injection Eq as Es. apply (f_equal deserialize_pair) in Es. rewrite !des in Es by auto. congruence. } subst q'.
      rewrite W, des in H3 by (auto; apply (cmp_same cmp cmp_opp)). injection H3 as ->. cbn [tk takek fst snd].
      change (tk key ((rk, rv) :: B)) with (if beq rk key then rv :: tk key B else []).
      destruct (beqb_spec rk key); [contradiction|]. split; [destruct max; cbn; [|rewrite firstn_nil]; now rewrite app_nil_r|]. split; auto. eapply MV, Mv.
    - destruct (get_rec _ _ _ _ _ _ E H2) as [R W]. destruct (o_pos o 0) as [k|]; [|destruct W; discriminate].
      destruct W as [Mv W]. rewrite HB in W, Mv. destruct B as [|q B]; cbn [map hd_error] in W, Mv; [discriminate|].
      destruct W as (_ & q' & Hq & Eq & W). assert (Sq' : small q') by (rewrite Forall_forall in SM; auto).
      assert (Sq : small q) by (rewrite EM in SM; apply Forall_app in SM; destruct SM as [_ SM]; now inversion SM).
      assert (q' = q). { unfold rec in Eq. injection Eq as Es. apply (f_equal deserialize_pair) in Es. rewrite !des in Es by auto. congruence. } subst q'.
      rewrite W, des in H3 by (auto; apply (cmp_same cmp cmp_opp)). injection H3 as ->.
      change (tk key ((key, rv) :: B)) with (if beq key key then rv :: tk key B else []). destruct (beqb_spec key key); [|congruence].
      cbn [ostep] in H4. destruct H4 as (R2 & _ & W2). pose proof (Mv 0) as P0. cbn [Nat.eqb at_key option_map rec fst] in P0. rewrite P0 in W2. destruct W2 as [_ Mv2].
      pose proof (asc_rec _ SM SS) as AS. rewrite EM, map_app in AS. cbn [map] in AS. unfold rec in AS at 2.
      assert (G : o_gt cmp (ser (key, rv)) (o_recs o1) = hd_error (map rec B)).
      { rewrite R, E, EM, map_app. cbn [map]. unfold rec at 2. now apply (gt_mid cmp cmp_opp). }
      rewrite G in Mv2. specialize (IH M (X ++ [(key, rv)]) B). destruct IH as (I1 & I2 & I3); auto; try congruence.
      + rewrite EM, <- app_assoc. reflexivity.
      + pose proof (Mv2 0) as P2. cbn [Nat.eqb] in P2. rewrite P2. destruct B as [|q2 B]; [reflexivity|]. cbn [map hd_error at_key option_map rec fst].
        replace (map rec M) with (map rec (X ++ [(key, rv)]) ++ (ser q2, []) :: map rec B).
        2:{ rewrite EM, !map_app, <- app_assoc. reflexivity. }
        apply (ge_mid cmp cmp_opp). rewrite map_app, <- app_assoc. exact AS.
      + split; [|split; [congruence|]].
        * rewrite I1. rewrite <- app_assoc, app_length. cbn [length app]. do 2 f_equal. destruct max as [|n]; auto.
          replace (S n - length m) with (S (S n - (length m + 1))) by lia. reflexivity.
        * intros j. rewrite I3. rewrite (MV _ _ _ Mv2 j). apply (MV _ _ _ Mv j).
  Qed.
  Definition jumped (o : ost) (j : nat) (r : option bytes) : ost := mkO (o_recs o) (fun i => if i =? j then r else o_pos o i).
  Lemma get_ex o j : exists cd o1 x, ostep cmp bytes (KItProcess j get_key false) o [] cd o1 x.
  Proof.
    destruct (o_pos o j) as [k|] eqn:P.
    - destruct (o_ge cmp k (o_recs o)) as [[k1 v1]|] eqn:G.
      + exists SUCCESS, (jumped o j (Some k1)), (snd (o_process cmp (o_recs o) k1 get_key false [])). cbn [ostep]. rewrite P, G.
        split; [intros i; reflexivity|]. split; auto. split; auto. unfold o_process. destruct (o_call cmp (o_recs o) k1 get_key []); reflexivity.
      + exists NOT_FOUND_ERROR, (jumped o j None), []. cbn [ostep]. rewrite P, G. split; [intros i; reflexivity|]. auto.
    - exists NOT_FOUND_ERROR, o, []. cbn [ostep]. rewrite P. repeat split; auto.
  Qed.
  Lemma next_ex o j : exists cd o1 x, ostep cmp bytes (KItNext j) o [] cd o1 x.
  Proof.
    destruct (o_pos o j) as [k|] eqn:P.
    - exists SUCCESS, (jumped o j (at_key (o_gt cmp k (o_recs o)))), []. cbn [ostep]. rewrite P. repeat split; auto.
    - exists NOT_FOUND_ERROR, o, []. cbn [ostep]. rewrite P. repeat split; auto.
  Qed.
  Lemma loop_ex key max M : Forall small M -> StronglySorted pltc M -> forall B X o m, o_recs o = map rec M -> M = X ++ B ->
    match o_pos o 0 with None => B = [] | Some x => o_ge cmp x (map rec M) = hd_error (map rec B) end ->
    exists out o2, values_loop cmp key max o m out o2.
  Proof.
    intros SM SS. induction B as [|q B IH]; intros X o m E EM HB;
      (assert (C : (0 < max /\ max <= length m) \/ ~ (0 < max /\ max <= length m)) by lia; destruct C as [[C1 C2]|N]; [exists (Some m), o; now constructor|]);
      destruct (get_ex o 0) as (cd & o1 & x & G);
      pose proof (get_rec _ _ _ _ _ _ E G) as [R W].
    1: (exists (Some m), o1; eapply vl_end; [exact N|exact G|]; destruct (o_pos o 0); [destruct W as [_ W]; rewrite HB in W; cbn [map hd_error] in W; subst; discriminate|destruct W as [-> _]; discriminate]).
    all: destruct (o_pos o 0) as [k|]; [|discriminate]; destruct W as [Mv W]; rewrite HB in W, Mv; cbn [map hd_error] in W, Mv; destruct W as (-> & q' & Hq & Eq & W).
    all: assert (Sq' : small q') by (rewrite Forall_forall in SM; auto).
    all: assert (Sq : small q) by (rewrite EM in SM; apply Forall_app in SM; destruct SM as [_ SM]; now inversion SM).
    all: assert (q' = q) by (unfold rec in Eq; injection Eq as Es; apply (f_equal deserialize_pair) in Es; rewrite !des in Es by auto; congruence); subst q'.
    all: specialize (W (cmp_same cmp cmp_opp _) SS SM); pose proof (des _ Sq) as Dq; rewrite <- W in Dq; destruct q as [rk rv].
    all: destruct (beqb_spec rk key) as [->|Nk]; [|exists (Some m), o1; eapply vl_other; eauto].
    all: destruct (next_ex o1 0) as (cd2 & o2 & x2 & G2); pose proof G2 as G2'; cbn [ostep] in G2; destruct G2 as (R2 & _ & W2).
    all: pose proof (Mv 0) as P0; cbn [Nat.eqb at_key option_map rec fst] in P0; rewrite P0 in W2; destruct W2 as [_ Mv2].
    all: pose proof (asc_rec _ SM SS) as AS; rewrite EM, map_app in AS; cbn [map] in AS; unfold rec in AS at 2.
    all: assert (Gt : o_gt cmp (ser (key, rv)) (o_recs o1) = hd_error (map rec B)) by (rewrite R, E, EM, map_app; cbn [map]; unfold rec at 2; now apply (gt_mid cmp cmp_opp)).
    all: rewrite Gt in Mv2; destruct (IH (X ++ [(key, rv)]) o2 (m ++ [rv])) as (out & o3 & L); [congruence|rewrite EM, <- app_assoc; reflexivity| |exists out, o3; eapply vl_next; eauto].
    all: pose proof (Mv2 0) as P2; cbn [Nat.eqb] in P2; rewrite P2; destruct B as [|q2 B]; [reflexivity|]; cbn [map hd_error at_key option_map rec fst].
    all: replace (map rec M) with (map rec (X ++ [(key, rv)]) ++ (ser q2, []) :: map rec B) by (rewrite EM, !map_app, <- app_assoc; reflexivity).
    all: apply (ge_mid cmp cmp_opp); rewrite map_app, <- app_assoc; exact AS.
  Qed.

  Definition call_small (c : icall bytes bytes) : Prop :=
    match c with IAdd k v | IRemove k v | ICheck k v | IJump _ k v => small (k, v) | IValues k _ => (blen k < two64)%N | _ => True end.
  Definition drel (o : ost) (i : ist bytes bytes) : Prop :=
    o_recs o = map rec (i_pairs i) /\ Forall small (i_pairs i) /\ sorted pltc i /\
    (forall j, o_pos o (S j) = option_map ser (i_pos i j)) /\ (forall j p, i_pos i j = Some p -> small p).
  Lemma dmove o o' i j r : drel o i -> o_recs o' = o_recs o -> moved o o' (S j) (option_map ser r) -> (forall p, r = Some p -> small p) ->
    drel o' (mkI (i_pairs i) (fun n => if n =? j then r else i_pos i n)).
  Proof.
    intros (E & SM & SS & P & PS) R Mv H. split; [cbn; congruence|]. split; [exact SM|]. split; [exact SS|]. cbn. split.
    - intros n. rewrite (Mv (S n)). cbn [Nat.eqb]. destruct (n =? j); auto.
    - intros n p. destruct (n =? j); auto. apply PS.
  Qed.
  Lemma dstay o o' i : drel o i -> o_recs o' = o_recs o -> (forall j, o_pos o' (S j) = o_pos o (S j)) -> drel o' i.
  Proof. intros (E & SM & SS & P & PS) R St. split; [congruence|]. split; auto. split; auto. split; auto. intros j. rewrite St. apply P. Qed.
  Lemma least_small P M r p : Forall small M -> least pltc P M r -> r = Some p -> small p.
  Proof. intros F H ->. rewrite Forall_forall in F. apply F, H. Qed.
  Lemma greatest_small P M r p : Forall small M -> greatest pltc P M r -> r = Some p -> small p.
  Proof. intros F H ->. rewrite Forall_forall in F. apply F, H. Qed.
  Lemma db_step_sound c o r o' i : drel o i -> call_small c -> ix_step cmp c o r o' -> exists i', db_spec pltc c i r i' /\ drel o' i'.
  Proof.
    intros R Sc H. pose proof R as (E & SM & SS & P & PS). unfold sorted in SS.
    assert (SM' : forall q, In q (i_pairs i) -> small q) by now apply Forall_forall.
    assert (SameL : forall p, small p -> forall q, In q (i_pairs i) -> same_elem _ dltb p q = true <-> p = q).
    { intros p Sp q Hq. eapply same_spec; eauto using dltb_spec, pirr, ptot. }
    assert (FindL : forall p, small p -> match find (same_elem _ dltb p) (i_pairs i) with Some x => x = p /\ In p (i_pairs i) | None => ~ In p (i_pairs i) end).
    { intros p Sp. destruct (find (same_elem _ dltb p) (i_pairs i)) as [x|] eqn:Ef.
      - apply find_some in Ef. destruct Ef as [Ix Ex]. apply SameL in Ex; auto. now subst.
      - intros Hi. pose proof (find_none _ _ Ef _ Hi) as W. rewrite (proj2 (SameL _ Sp _ Hi) eq_refl) in W. discriminate. }
    inversion H; subst; cbn [call_small] in Sc.
    - (* Add *) cbn [ostep] in H0. destruct H0 as (-> & R1 & R2 & St). unfold o_process, o_call in R1, R2. change (serialize_pair k v) with (ser (k, v)) in *.
      rewrite E, o_find_rec in R1, R2. pose proof (FindL _ Sc) as F.
      destruct (ins_spec _ _ pltc pirr ptrans ptot small dltb dltb_spec (k, v) (i_pairs i) Sc SM SS) as [S' I'].
      assert (W : i0 = SUCCESS /\ o_recs o' = map rec (set_emplace _ dltb (k, v) (i_pairs i))).
      { destruct (find (same_elem _ dltb (k, v)) (i_pairs i)) as [x|]; cbn [option_map rec on_full on_empty pr_set fst snd o_act] in R1, R2; inversion R2; subst;
          (split; [reflexivity|]); rewrite R1; apply o_put_rec. }
      destruct W as [-> W]. exists (mkI (set_emplace _ dltb (k, v) (i_pairs i)) (i_pos i)). split.
      + split; [exact S'|]. split; [reflexivity|]. split; [exact I'|]. intros j. reflexivity.
      + split; [exact W|]. cbn. split; [apply Forall_forall; intros q Hq; apply I' in Hq; destruct Hq as [->|]; auto|]. split; [exact S'|]. split; auto. intros j. rewrite (St (S j)). apply P.
    - (* Remove *) cbn [ostep] in H0. destruct H0 as (-> & R1 & R2 & St). unfold o_process, o_call in R1, R2. change (serialize_pair k v) with (ser (k, v)) in *.
      rewrite E, o_find_rec in R1, R2. pose proof (FindL _ Sc) as F.
      destruct (erase_spec _ _ pltc pirr ptot small dltb dltb_spec (k, v) (i_pairs i) Sc SM SS) as [S' I'].
      exists (mkI (set_erase _ dltb (k, v) (i_pairs i)) (i_pos i)).
      assert (W : o_recs o' = map rec (set_erase _ dltb (k, v) (i_pairs i)) /\
        (In (k, v) (i_pairs i) /\ i0 = SUCCESS \/ ~ In (k, v) (i_pairs i) /\ i0 = NOT_FOUND_ERROR)).
      { destruct (find (same_elem _ dltb (k, v)) (i_pairs i)) as [x|] eqn:Ef; cbn [option_map rec on_full on_empty pr_remove fst snd o_act] in R1, R2; inversion R2; subst.
        - split; [|tauto]. rewrite R1. now apply o_del_rec.
        - split; [|tauto]. rewrite R1. rewrite erase_none; auto. intros q Hq. apply (find_none _ _ Ef _ Hq). }
      destruct W as [W C]. split.
      + split; [exact S'|]. split; [destruct C as [[C ->]|[C ->]]; auto|]. split; [exact I'|]. intros j. reflexivity.
      + split; [exact W|]. cbn. split; [apply Forall_forall; intros q Hq; apply I' in Hq; apply SM'; tauto|]. split; [exact S'|]. split; auto. intros j. rewrite (St (S j)). apply P.
    - (* Check *) cbn [ostep] in H0. destruct H0 as (-> & R1 & R2 & St). unfold o_process, o_call in R1, R2. change (serialize_pair k v) with (ser (k, v)) in *.
      rewrite E, o_find_rec in R1, R2. pose proof (FindL _ Sc) as F. exists i. split.
      + split; [exact SS|]. split; [|apply unch]. eexists. split; [reflexivity|].
        destruct (find (same_elem _ dltb (k, v)) (i_pairs i)) as [x|] eqn:Ef; cbn [option_map rec on_full on_empty pr_get fst snd] in R2; inversion R2; subst; cbn; [tauto|].
        split; [discriminate|]. tauto.
      + apply (dstay o o' i R); [|intros j; apply (St (S j))]. rewrite E. destruct (find (same_elem _ dltb (k, v)) (i_pairs i)) as [x|]; exact R1.
    - (* Values *) cbn [ostep] in H0. destruct H0 as (-> & R1 & _ & Mv). assert (Sk : small (k, [])) by (split; cbn; [exact Sc|reflexivity]).
      destruct (from_bound_split _ _ pltc ptrans small dltb dltb_spec (k, []) (i_pairs i) Sk SM SS) as (X & EM & L1 & L2 & L3).
      assert (E1 : o_recs o1 = map rec (i_pairs i)) by congruence.
      destruct (loop_sound _ _ _ _ _ _ H1 (i_pairs i) X _ E1 EM SM SS) as (-> & R2 & Ps).
      { rewrite (Mv 0). cbn [Nat.eqb]. change (serialize_pair k []) with (ser (k, [])). rewrite o_ge_rec, L3. now rewrite hd_map. }
      exists i. split.
      + split; [exact SS|]. split; [|apply unch]. eexists. split; [reflexivity|]. exists (tk k (from_bound _ dltb (k, []) (i_pairs i))).
        destruct (takek_spec _ _ pltc ptot beqb beqb_iff pcontig k [] _ _ _ SS EM L1 L2) as [T1 T2].
        split; [exact T1|]. split.
        * intros v. rewrite T2. split; intros [Hi _]; split; auto. intros L. unfold pltc, pcmp in L. cbn in L. rewrite (proj2 (kc_eq k k) eq_refl) in L. destruct v; discriminate.
        * cbn [app length]. destruct max; auto.
      + eapply dstay; eauto; [congruence|]. intros j. rewrite Ps. apply (Mv (S j)).
    - (* Count *) exists i. split; [|exact R]. split; [exact SS|]. split; [|apply unch]. now rewrite E, map_length.
    - (* Clear *) cbn [ostep] in H0. destruct H0 as (-> & R1 & _ & Ps). exists (mkI [] (fun _ => None)). split.
      + split; [constructor|]. auto.
      + split; [exact R1|]. cbn. split; auto. split; [constructor|]. split; auto. discriminate.
    - (* First *) cbn [ostep] in H0. destruct H0 as (-> & R1 & _ & Mv). rewrite E, hd_map, at_rec in Mv.
      pose proof (hd_least _ _ pltc (i_pairs i) SS) as L.
      pose proof (dmove _ _ _ _ _ R R1 Mv (fun p => least_small _ _ _ p SM L)) as R'. eexists. split; [|exact R'].
      split; [exact SS|]. split; auto. now apply goes_move.
    - (* Last *) cbn [ostep] in H0. destruct H0 as (-> & R1 & _ & Mv). unfold o_last in Mv. rewrite E, <- map_rev, hd_map, at_rec in Mv.
      pose proof (last_greatest _ _ pltc (i_pairs i) SS) as L.
      pose proof (dmove _ _ _ _ _ R R1 Mv (fun p => greatest_small _ _ _ p SM L)) as R'. eexists. split; [|exact R'].
      split; [exact SS|]. split; auto. now apply goes_move.
    - (* Jump *) cbn [ostep] in H0. destruct H0 as (-> & R1 & _ & Mv).
      assert (HS : forall p, Some (k, v) = Some p -> small p) by (intros p [= <-]; exact Sc).
      pose proof (dmove _ _ _ _ (Some (k, v)) R R1 Mv HS) as R'. eexists. split; [|exact R'].
      split; [exact SS|]. split; auto. now apply goes_move.
    - (* Next *) cbn [ostep] in H0. destruct H0 as (R1 & _ & W). rewrite P in W. destruct (i_pos i j) as [p|] eqn:Ep; cbn [option_map] in W.
      + destruct W as [-> Mv]. rewrite E, o_gt_rec, at_rec in Mv.
        assert (L : least pltc (pltc p) (i_pairs i) (find (fun y => dltb p y) (i_pairs i))).
        { apply find_least; auto. intros q Hq. apply dltb_spec; eauto. }
        pose proof (dmove _ _ _ _ _ R R1 Mv (fun p => least_small _ _ _ p SM L)) as R'. eexists. split; [|exact R'].
        split; [exact SS|]. split; auto. rewrite Ep. now apply goes_move.
      + destruct W as [-> St]. exists i. split; [|eapply dstay; eauto; intros n; apply (St (S n))]. split; [exact SS|]. split; auto. rewrite Ep. apply unch.
    - (* Previous *) cbn [ostep] in H0. destruct H0 as (R1 & _ & W). rewrite P in W. destruct (i_pos i j) as [p|] eqn:Ep; cbn [option_map] in W.
      + destruct W as [-> (q & Mv & Q1 & Q2)]. rewrite E, o_find_rec, o_lt_rec, at_rec in Q1. rewrite E in Q2.
        assert (Sp : small p) by eauto.
        assert (L : greatest pltc (fun x => pltc x p) (i_pairs i) (find (fun y => dltb y p) (rev (i_pairs i)))).
        { apply find_greatest; auto. intros x0 Hq. apply dltb_spec; auto. }
        assert (Wq : exists q', q = option_map rec q' /\ (forall x0, q' = Some x0 -> In x0 (i_pairs i) /\ pltc x0 p)).
        { destruct q as [[k1 v1]|]; [|exists None; split; auto; discriminate]. destruct (Q2 k1 v1 eq_refl) as [Hi Hl].
          apply in_map_iff in Hi. destruct Hi as (y & Ey & Hy). exists (Some y). split; [cbn; now rewrite Ey|]. intros x0 [= <-]. split; auto.
          unfold rec in Ey. injection Ey as <- <-. rewrite agree in Hl; auto. }
        destruct Wq as (q' & -> & Hq'). rewrite at_rec in Mv, Q1.
        assert (HS : forall p, q' = Some p -> small p) by (intros y Hy; apply SM', Hq', Hy).
        pose proof (dmove _ _ _ _ _ R R1 Mv HS) as R'. eexists. split; [|exact R']. split; [exact SS|]. split; auto. rewrite Ep. apply goes_move.
        split; [|exact Hq']. intros Hi. pose proof (FindL p Sp) as F. destruct (find (same_elem _ dltb p) (i_pairs i)); [|contradiction].
        cbn [option_map] in Q1. specialize (Q1 ltac:(discriminate)).
        assert (Eq : q' = find (fun y => dltb y p) (rev (i_pairs i))).
        { destruct q' as [a|] eqn:Ea, (find (fun y => dltb y p) (rev (i_pairs i))) as [b|] eqn:Eb; cbn in Q1; try discriminate; auto.
          injection Q1 as Es. apply (f_equal deserialize_pair) in Es. rewrite !des in Es; [congruence| |auto]. apply find_some in Eb. destruct Eb as [Eb _]. apply in_rev in Eb. auto. }
        rewrite Eq. exact L.
      + destruct W as [-> St]. exists i. split; [|eapply dstay; eauto; intros n; apply (St (S n))]. split; [exact SS|]. split; auto. rewrite Ep. apply unch.
    - (* Get, failing *) destruct (get_rec _ _ _ _ _ _ E H0) as [R1 W]. rewrite P in W. destruct (i_pos i j) as [p|] eqn:Ep; cbn [option_map] in W.
      + destruct W as [Mv W]. rewrite o_ge_rec in W, Mv. rewrite at_rec in Mv.
        destruct (find (fun y => negb (dltb y p)) (i_pairs i)) as [q|] eqn:Ef; cbn [option_map] in W; [destruct W; congruence|].
        assert (HS : forall p, @None (bytes * bytes) = Some p -> small p) by discriminate.
        pose proof (dmove _ _ _ _ None R R1 Mv HS) as R'. eexists. split; [|exact R']. split; [exact SS|]. rewrite Ep. exists None. split; auto. split; [|now apply goes_move].
        intros q Hq N. pose proof (find_none _ _ Ef q Hq) as W'. apply negb_false_iff in W'. apply N. apply dltb_spec; eauto.
      + destruct W as [-> St]. exists i. split; [|eapply dstay; eauto; intros n; apply (St (S n))]. split; [exact SS|]. rewrite Ep. split; auto. apply unch.
    - (* Get *) destruct (get_rec _ _ _ _ _ _ E H0) as [R1 W]. rewrite P in W. destruct (i_pos i j) as [p|] eqn:Ep; cbn [option_map] in W; [|destruct W; discriminate].
      destruct W as [Mv W]. rewrite o_ge_rec in W, Mv. rewrite at_rec in Mv.
      assert (L : least pltc (fun x => ~ pltc x p) (i_pairs i) (find (fun y => negb (dltb y p)) (i_pairs i))).
      { apply find_least; auto. intros q Hq. rewrite negb_true_iff. assert (Sp : small p) by eauto.
        pose proof (dltb_spec q p (SM' _ Hq) Sp) as W'. destruct (dltb q p); [|intuition congruence]. split; [discriminate|]. intros N. exfalso. tauto. }
      destruct (find (fun y => negb (dltb y p)) (i_pairs i)) as [q|] eqn:Ef; cbn [option_map] in W; [|discriminate].
      destruct W as (_ & q' & Hq & Eq & W). assert (q' = q). { unfold rec in Eq. injection Eq as Es. apply (f_equal deserialize_pair) in Es. rewrite !des in Es; [congruence|auto|]. apply find_some in Ef. apply SM', Ef. } subst q'.
      rewrite (W (cmp_same cmp cmp_opp _) SS SM), des by auto.
      pose proof (dmove _ _ _ _ _ R R1 Mv (fun p => least_small _ _ _ p SM L)) as R'. eexists. split; [|exact R'].
      split; [exact SS|]. rewrite Ep. exists (Some q). split; auto. split; auto. now apply goes_move.
  Qed.
  Lemma db_step_ex c o i : drel o i -> call_small c -> exists r o', ix_step cmp c o r o'.
  Proof.
    intros R Sc. pose proof R as (E & SM & SS & P & PS).
    destruct c as [k v|k v|k v|k max| | |j|j|j k v|j|j|j]; cbn [call_small] in Sc.
    - destruct (o_process cmp (o_recs o) (serialize_pair k v) (pr_set [] true) true (SUCCESS, [])) as [L [i0 old]] eqn:Ep.
      exists (RCode (both SUCCESS i0)), (mkO L (o_pos o)). apply ix_add with (old := old). cbn [ostep]. rewrite Ep. repeat split; auto.
    - destruct (o_process cmp (o_recs o) (serialize_pair k v) pr_remove true (SUCCESS, [])) as [L [i0 old]] eqn:Ep.
      exists (RCode (both SUCCESS i0)), (mkO L (o_pos o)). apply ix_remove with (old := old). cbn [ostep]. rewrite Ep. repeat split; auto.
    - destruct (o_process cmp (o_recs o) (serialize_pair k v) pr_get false (SUCCESS, [])) as [L [i0 old]] eqn:Ep.
      eexists. exists (mkO L (o_pos o)). apply ix_check with (cd := SUCCESS) (i := i0) (old := old). cbn [ostep]. rewrite Ep. repeat split; auto.
    - assert (Sk : small (k, [])) by (split; cbn; [exact Sc|reflexivity]).
      destruct (from_bound_split _ _ pltc ptrans small dltb dltb_spec (k, []) (i_pairs i) Sk SM SS) as (X & EM & L1 & L2 & L3).
      destruct (loop_ex k max _ SM SS _ X (jumped o 0 (Some (serialize_pair k []))) [] E EM) as (out & o2 & L).
      { cbn. change (serialize_pair k []) with (ser (k, [])). rewrite o_ge_rec, L3. now rewrite hd_map. }
      eexists. exists o2. eapply ix_values; [|exact L]. cbn [ostep]. repeat split; auto.
    - eexists. exists o. constructor.
    - eexists. exists (mkO [] (fun _ => None)). eapply ix_clear. cbn [ostep]. repeat split; auto.
    - eexists. eexists (jumped o (S j) _). eapply ix_first. cbn [ostep]. repeat split; auto.
    - eexists. eexists (jumped o (S j) _). eapply ix_last. cbn [ostep]. repeat split; auto.
    - eexists. eexists (jumped o (S j) _). eapply ix_jump. cbn [ostep]. repeat split; auto.
    - destruct (next_ex o (S j)) as (cd & o1 & x & G). eexists. exists o1. eapply ix_next, G.
    - destruct (o_pos o (S j)) as [k|] eqn:Ep.
      + eexists. exists (jumped o (S j) (at_key (o_lt cmp k (o_recs o)))). eapply ix_prev with (x := []). cbn [ostep]. rewrite Ep. split; auto. split; auto. split; auto.
        exists (o_lt cmp k (o_recs o)). split; [intros n; reflexivity|]. split; auto. intros k1 v1 Hl. unfold o_lt in Hl. apply find_some in Hl. destruct Hl as [Hi Hl].
        apply in_rev in Hi. split; auto. cbn in Hl. unfold less in Hl. destruct (cmp k1 k); congruence.
      + eexists. exists o. eapply ix_prev with (x := []). cbn [ostep]. rewrite Ep. repeat split; auto.
    - destruct (get_ex o (S j)) as (cd & o1 & x & G). destruct (get_rec _ _ _ _ _ _ E G) as [_ W].
      assert (C : cd = SUCCESS \/ cd <> SUCCESS).
      { destruct (o_pos o (S j)) as [k|]; [destruct W as [_ W]; destruct (o_ge cmp k (map rec (i_pairs i)))|]; [left; tauto|right; subst; discriminate|right; destruct W; subst; discriminate]. }
      destruct C as [->|N]; eexists; exists o1; [eapply ix_get, G|eapply ix_get_fail; eauto].
  Qed.
  Lemma db_runs_sound : forall cs o rs o' i, drel o i -> Forall call_small cs -> ix_runs cmp cs o rs o' -> exists i', spec_runs (db_spec pltc) cs i rs i' /\ drel o' i'.
  Proof.
    intros cs o rs o' i R F H. revert i R F. induction H as [o|c cs o r o1 rs o2 H1 H2 IH]; intros i R F.
    - exists i. split; [constructor|exact R].
    - inversion F; subst. destruct (db_step_sound _ _ _ _ _ R H3 H1) as (i1 & S1 & R1). destruct (IH i1 R1 H4) as (i2 & S2 & R2).
      exists i2. split; [econstructor; eauto|exact R2].
  Qed.
  Lemma db_runs_ex : forall cs o i, drel o i -> Forall call_small cs -> exists rs o', ix_runs cmp cs o rs o'.
  Proof.
    induction cs as [|c cs IH]; intros o i R F; [exists [], o; constructor|]. inversion F; subst.
    destruct (db_step_ex c o i R) as (r & o1 & S1); auto. destruct (db_step_sound _ _ _ _ _ R H1 S1) as (i1 & _ & R1).
    destruct (IH o1 i1 R1) as (rs & o2 & S2); auto. exists (r :: rs), o2. econstructor; eauto.
  Qed.
  Lemma drel_new : drel o_empty i_new.
  Proof. split; auto. cbn. split; auto. split; [constructor|]. split; auto. discriminate. Qed.
End Db.
