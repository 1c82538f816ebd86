(** C38: appends from any number of threads get disjoint regions, and every region holds its data. *)
From Coq Require Import NArith List Lia Bool Arith Permutation.
From Verif Require Import Bytes AppendModel.
Import ListNotations.
Local Open Scope N_scope.

(** * Specification *)

(** Two regions, each an offset and the data appended there, have no address in common. *)
Definition disjoint (a b : N * bytes) : Prop :=
  forall x, fst a <= x < fst a + blen (snd a) -> fst b <= x < fst b + blen (snd b) -> False.

(** The bytes at the region are its data. *)
Definition holds_data (s : sys) (r : N * bytes) : Prop :=
  forall i b, nth_error (snd r) i = Some b -> dat s (fst r + N.of_nat i) = b /\ fst r + N.of_nat i < plen s.

(** The regions rs, latest first, follow one another from lo to hi without gap. *)
Fixpoint tile (lo : N) (rs : list (N * bytes)) (hi : N) : Prop :=
  match rs with [] => hi = lo | (p, d) :: r => hi = p + blen d /\ tile lo r p end.

(** * Generic lemmas *)

Lemma upd_same : forall f t p, upd f t p t = p.
Proof. intros. unfold upd. rewrite Nat.eqb_refl. reflexivity. Qed.
Lemma upd_other : forall f t p i, i <> t -> upd f t p i = f i.
Proof. intros. unfold upd. apply Nat.eqb_neq in H. rewrite H. reflexivity. Qed.

Lemma tile_le : forall rs lo hi, tile lo rs hi -> lo <= hi.
Proof. induction rs as [|[p d] r IH]; cbn; intros lo hi H; [lia|]. destruct H as [-> H]. apply IH in H. lia. Qed.

Lemma tile_in : forall rs lo hi p d, tile lo rs hi -> In (p, d) rs -> lo <= p /\ p + blen d <= hi.
Proof.
  induction rs as [|[q e] r IH]; cbn; intros lo hi p d H I; [easy|]. destruct H as [-> H]. destruct I as [E|I].
  - injection E as -> ->. apply tile_le in H. lia.
  - destruct (IH _ _ _ _ H I). lia.
Qed.

Lemma tile_meet : forall rs lo hi p d q e x, tile lo rs hi -> In (p, d) rs -> In (q, e) rs ->
  p <= x < p + blen d -> q <= x < q + blen e -> p = q /\ d = e.
Proof.
  induction rs as [|[z c] r IH]; cbn; intros lo hi p d q e x H I J A B; [easy|]. destruct H as [-> H].
  destruct I as [E|I], J as [F|J].
  - injection E as -> ->. injection F as -> ->. auto.
  - injection E as -> ->. destruct (tile_in _ _ _ _ _ H J). lia.
  - injection F as -> ->. destruct (tile_in _ _ _ _ _ H I). lia.
  - eapply IH; eauto.
Qed.

Lemma tile_disjoint : forall rs lo hi, tile lo rs hi -> ForallOrdPairs disjoint rs.
Proof.
  induction rs as [|[p d] r IH]; cbn; intros lo hi H; constructor.
  - apply Forall_forall. intros [q e] I x A B. cbn in A, B. destruct H as [_ H]. destruct (tile_in _ _ _ _ _ H I). lia.
  - destruct H as [_ H]. eauto.
Qed.

Lemma disjoint_sym : forall a b, disjoint a b -> disjoint b a.
Proof. unfold disjoint. eauto. Qed.

Lemma pairs_perm : forall rs rs', Permutation rs rs' -> ForallOrdPairs disjoint rs -> ForallOrdPairs disjoint rs'.
Proof.
  induction 1; intros H'; auto.
  - inversion H'; subst. constructor; auto. rewrite <- H. auto.
  - inversion H' as [|? ? F G]; subst. inversion G as [|? ? F' G']; subst. inversion F as [|? ? D F'']; subst.
    constructor; [constructor; auto using disjoint_sym|constructor; auto].
Qed.

Lemma pairs_app : forall rs rs', ForallOrdPairs disjoint (rs ++ rs') -> ForallOrdPairs disjoint rs.
Proof.
  induction rs; intros rs' H; constructor; inversion H as [|? ? F G]; subst.
  - apply Forall_app in F. tauto.
  - eauto.
Qed.

(** Regions reserved by a thread whose Append has not returned. *)
Definition flight (p : pc) : list (N * bytes) :=
  match p with ASh d p | ACopy d p _ => [(p, d)] | _ => [] end.

Fixpoint flights (f : nat -> pc) (n : nat) : list (N * bytes) :=
  match n with O => [] | S m => flight (f m) ++ flights f m end.

Lemma flights_ext : forall f g n, (forall i, (i < n)%nat -> f i = g i) -> flights f n = flights g n.
Proof. induction n; intros H; [easy|]. cbn. rewrite IHn by (intros; apply H; lia). rewrite H by lia. easy. Qed.

Lemma flights_upd : forall f t p n, (t < n)%nat ->
  Permutation (flight p ++ flights f n) (flight (f t) ++ flights (upd f t p) n).
Proof.
  induction n; intros H; [lia|]. cbn. destruct (Nat.eq_dec t n) as [->|E].
  - rewrite upd_same. rewrite (flights_ext (upd f n p) f) by (intros; apply upd_other; lia).
    rewrite !app_assoc. apply Permutation_app_tail. apply Permutation_app_comm.
  - rewrite upd_other by lia. rewrite !app_assoc. rewrite (Permutation_app_comm (flight p)).
    rewrite (Permutation_app_comm (flight (f t)) (flight (f n))). rewrite <- !app_assoc. apply Permutation_app_head.
    apply IHn. lia.
Qed.

Lemma flights_same : forall f t p n, (t < n)%nat -> flight (f t) = flight p ->
  Permutation (flights f n) (flights (upd f t p) n).
Proof. intros f t p n H E. pose proof (flights_upd f t p n H) as P. rewrite E in P. eapply Permutation_app_inv_l; eauto. Qed.

Lemma flights_idle : forall f n, (forall i, (i < n)%nat -> f i = Idle) -> flights f n = [].
Proof. induction n; intros H; [easy|]. cbn. rewrite H by lia. apply IHn. intros; apply H; lia. Qed.

(** * Reservations *)

(** Holds with concurrent Synchronize calls as well. *)
Record inv0 (nt : nat) (lo : N) (s : sys) : Prop := {
  i_tile : tile lo (resv s) (fsize s);
  i_perm : Permutation (resv s) (rets s ++ flights (pcs s) nt) }.

Ltac upds := rewrite ?upd_same in *; rewrite ?upd_other in * by lia.

Lemma perm_move : forall f t p n rv rt, (t < n)%nat -> flight (f t) = flight p ->
  Permutation rv (rt ++ flights f n) -> Permutation rv (rt ++ flights (upd f t p) n).
Proof. intros. rewrite H1. apply Permutation_app_head. apply flights_same; auto. Qed.

Lemma inv0_step : forall k sync nt lo t s s', inv0 nt lo s -> (t < nt)%nat -> step k sync t s s' -> inv0 nt lo s'.
Proof.
  intros k sync nt lo t s s' [T P] Ht S. destruct S; constructor; cbn [resv fsize rets pcs] in *;
    try assumption; try (apply perm_move; [assumption| |assumption]; rewrite H; try reflexivity);
    try (apply perm_move; [assumption| |assumption]; rewrite H1; reflexivity);
    try (apply perm_move; [assumption| |assumption]; rewrite H0; reflexivity).
  - destruct (p + blen d <=? as_); reflexivity.
  - cbn. auto.
  - assert (flight (match k with Map => ASh d p | Pos => ACopy d p 0 end) = [(p, d)]) as E by (destruct k; reflexivity).
    pose proof (flights_upd f t (match k with Map => ASh d p | Pos => ACopy d p 0 end) nt Ht) as Q. rewrite E, H in Q.
    cbn [flight app] in Q. rewrite <- Q. rewrite P. apply Permutation_middle.
  - pose proof (flights_upd f t Idle nt Ht) as Q. rewrite H in Q. cbn [flight app] in Q. rewrite P, Q.
    apply Permutation_sym. apply Permutation_middle.
Qed.

Lemma inv0_reach : forall k sync nt lo da s, reach k sync nt lo da s -> inv0 nt lo s.
Proof.
  induction 1; [|eapply inv0_step; eauto]. constructor; cbn; auto. rewrite flights_idle; auto.
Qed.

(** * Exclusion of remapping *)

Definition has_lock (p : pc) : bool :=
  match p with AIn _ _ | ATrunc _ _ _ | AStore _ _ _ | SMap | SCut => true | _ => false end.
Definition copying (p : pc) : bool := match p with ACopy _ _ _ => true | _ => false end.

Fixpoint count (P : pc -> bool) (f : nat -> pc) (n : nat) : nat :=
  match n with O => O | S k => (count P f k + Nat.b2n (P (f k)))%nat end.

Lemma count_ext : forall P f g n, (forall i, (i < n)%nat -> f i = g i) -> count P f n = count P g n.
Proof. induction n; intros; [reflexivity|]. cbn. rewrite IHn by (intros; apply H; lia). rewrite (H n) by lia. reflexivity. Qed.

Lemma count_upd : forall P f t p n, (t < n)%nat ->
  (count P (upd f t p) n + Nat.b2n (P (f t)) = count P f n + Nat.b2n (P p))%nat.
Proof.
  induction n; intros Ht; [lia|]. cbn [count].
  destruct (Nat.eq_dec t n) as [->|Hn].
  - rewrite upd_same. rewrite (count_ext P (upd f n p) f n) by (intros; apply upd_other; lia). lia.
  - rewrite (upd_other f t p n) by lia. specialize (IHn ltac:(lia)). lia.
Qed.

Lemma count_pos : forall P f n t, (t < n)%nat -> P (f t) = true -> (1 <= count P f n)%nat.
Proof.
  induction n; intros t Ht HP; [lia|]. cbn. destruct (Nat.eq_dec t n) as [->|]; [rewrite HP; cbn; lia|].
  specialize (IHn t ltac:(lia) HP). lia.
Qed.

Lemma count_two : forall P f n t u, (t < n)%nat -> (u < n)%nat -> t <> u -> P (f t) = true -> P (f u) = true -> (2 <= count P f n)%nat.
Proof.
  induction n; intros t u Ht Hu E HP HQ; [lia|]. cbn.
  destruct (Nat.eq_dec t n) as [->|]; [rewrite HP; cbn; pose proof (count_pos P f n u ltac:(lia) HQ); lia|].
  destruct (Nat.eq_dec u n) as [->|]; [rewrite HQ; cbn; pose proof (count_pos P f n t ltac:(lia) HP); lia|].
  specialize (IHn t u ltac:(lia) ltac:(lia) E HP HQ). lia.
Qed.

Record inv1 (k : kind) (nt : nat) (s : sys) : Prop := {
  i_x : count has_lock (pcs s) nt = Nat.b2n (excl s);
  i_s : match k with Map => count copying (pcs s) nt = shared s | Pos => shared s = 0%nat end;
  i_xs : excl s = true -> shared s = 0%nat;
  i_k : k = Pos -> forall t, match pcs s t with ASh _ _ | SLock | SMap | SCut => False | _ => True end }.

Lemma inv1_step : forall k sync nt t s s', inv1 k nt s -> (t < nt)%nat -> step k sync t s s' -> inv1 k nt s'.
Proof.
  intros k sync nt t s s' [X Sh XS K] Ht S.
  assert (forall P f p n, (t < n)%nat -> (count P (upd f t p) n + Nat.b2n (P (f t)) = count P f n + Nat.b2n (P p))%nat) as CU
    by (intros; apply count_upd; auto).
  destruct S; cbn [pcs excl shared] in *;
    match goal with |- context [upd ?g t ?p] =>
      pose proof (CU has_lock g p nt Ht) as C1; pose proof (CU copying g p nt Ht) as C2 end;
    repeat match goal with E : _ t = _ |- _ => rewrite E in C1, C2; cbn [has_lock copying Nat.b2n] in C1, C2 end;
    try (destruct (p + blen d <=? as_); cbn [has_lock copying Nat.b2n] in C1, C2);
    try (destruct k; cbn [has_lock copying Nat.b2n] in C1, C2);
    try discriminate;
    (constructor; cbn [pcs excl shared];
     [ try (destruct x; cbn [Nat.b2n] in * ); cbn [Nat.b2n] in *; try lia
     | try (destruct x; cbn [Nat.b2n] in * ); cbn [Nat.b2n] in *; try lia
     | try (destruct x; cbn [Nat.b2n] in * ); cbn [Nat.b2n] in *; intros XX; try discriminate XX; try (specialize (XS eq_refl)); try lia
     | try discriminate; intros KE j; try discriminate KE; pose proof (K KE j) as Kj; pose proof (K KE t) as Kt;
       destruct (Nat.eq_dec j t) as [->|]; upds;
       repeat match goal with E : _ t = _ |- _ => rewrite E in Kt end; cbn in *; try exact I; try tauto ]).

  all: specialize (K eq_refl t); rewrite H in K; contradiction.
Qed.

Lemma inv1_reach : forall k sync nt lo da s, reach k sync nt lo da s -> inv1 k nt s.
Proof.
  induction 1; [|eapply inv1_step; eauto].
  assert (forall P n, P Idle = false -> count P (fun _ : nat => Idle) n = 0%nat) as C.
  { intros P n E. induction n; cbn; [easy|]. rewrite E, IHn. easy. }
  constructor; cbn; auto. destruct k; auto.
Qed.

(** * Data *)

Definition done_upto (s : sys) (p : N) (d : bytes) (i : nat) : Prop :=
  forall j b, (j < i)%nat -> nth_error d j = Some b -> dat s (p + N.of_nat j) = b /\ p + N.of_nat j < plen s.

Definition pc_ok (k : kind) (s : sys) (p : pc) : Prop :=
  match p with
  | ACas d p => p + blen d <= asize s
  | ATrunc d p n => p + blen d <= n /\ asize s < n
  | AStore d p n => p + blen d <= n /\ asize s < n /\ n <= plen s
  | ACopy d p i => done_upto s p d i
  | SLock | SMap | SCut | SLoad | SStore _ | STrunc => False
  | _ => True
  end.

Record inv2 (k : kind) (nt : nat) (lo : N) (da : N -> N) (s : sys) : Prop := {
  i_fa : fsize s <= asize s;
  i_pl : k = Map -> asize s <= plen s;
  i_lo : lo <= plen s;
  i_pc : forall t, pc_ok k s (pcs s t);
  i_rets : forall p d, In (p, d) (rets s) -> done_upto s p d (length d);
  i_old : forall i, i < lo -> dat s i = da i;
  i_ub : ub s = false;
  i_idle : forall t, (nt <= t)%nat -> pcs s t = Idle }.

Lemma flights_in : forall f n t r, (t < n)%nat -> In r (flight (f t)) -> In r (flights f n).
Proof.
  induction n; intros t r H I; [lia|]. cbn. apply in_or_app. destruct (Nat.eq_dec t n) as [->|]; [auto|].
  right. apply (IHn t); auto. lia.
Qed.

Lemma nth_blen : forall (d : bytes) j b, nth_error d j = Some b -> N.of_nat j < blen d.
Proof. intros d j b H. assert (nth_error d j <> None) as N by congruence. apply nth_error_Some in N. unfold blen. lia. Qed.

Section Inv2.
Variables (k : kind) (nt : nat) (lo : N) (da0 : N -> N).

(** What a step may change without disturbing the other threads. *)
Lemma pc_ok_same : forall s s' p, asize s' = asize s -> plen s' = plen s -> dat s' = dat s -> pc_ok k s p -> pc_ok k s' p.
Proof. intros s s' p A B C. unfold pc_ok, done_upto. rewrite A, B, C. auto. Qed.

Lemma simple : forall fs as_ pl da x sh u f rv rt t p x' sh',
  inv2 k nt lo da0 (mkSys fs as_ pl da x sh u f rv rt) -> (t < nt)%nat ->
  (forall g, pc_ok k (mkSys fs as_ pl da x' sh' u g rv rt) p) ->
  inv2 k nt lo da0 (mkSys fs as_ pl da x' sh' u (upd f t p) rv rt).
Proof.
  intros fs as_ pl da x sh u f rv rt t p x' sh' [FA PL LO PC RT OL UB ID] Ht OK. constructor; cbn [fsize asize plen dat ub rets pcs] in *; auto.
  - intros j. destruct (Nat.eq_dec j t) as [->|]; upds; [apply OK|]. eapply pc_ok_same; [..|apply (PC j)]; reflexivity.
  - intros j Hj. rewrite upd_other by lia. auto.
Qed.

Lemma done_grow : forall s s' p d i, (forall a, p <= a < p + blen d -> a < plen s -> dat s' a = dat s a /\ a < plen s') ->
  done_upto s p d i -> done_upto s' p d i.
Proof.
  intros s s' p d i H D j b J E. destruct (D j b J E) as [<- L]. apply H; auto. apply nth_blen in E. lia.
Qed.

Lemma inv2_step : forall t s s', inv0 nt lo s -> inv1 k nt s -> inv2 k nt lo da0 s -> (t < nt)%nat -> step k false t s s' ->
  inv2 k nt lo da0 s'.
Proof.
  intros t s s' [T P] [X Sh XS K] I2 Ht S.
  assert (forall u d p i, pcs s u = ACopy d p i -> In (p, d) (resv s)) as CR.
  { intros u d p i E. rewrite P. apply in_or_app. right. apply (flights_in _ _ u).
    - destruct (lt_dec u nt); auto. pose proof (i_idle _ _ _ _ _ I2 u ltac:(lia)). congruence.
    - rewrite E. left. reflexivity. }
  assert (forall p d, In (p, d) (rets s) -> In (p, d) (resv s)) as RR.
  { intros p d I. rewrite P. apply in_or_app. auto. }
  assert (forall u, has_lock (pcs s t) = true -> has_lock (pcs s u) = true -> u = t) as EX.
  { intros u A B. destruct (Nat.eq_dec u t); auto.
    destruct (lt_dec u nt) as [L|L]; [|rewrite (i_idle _ _ _ _ _ I2 u ltac:(lia)) in B; discriminate].
    pose proof (count_two has_lock (pcs s) nt u t L Ht n B A). destruct (excl s); cbn in X; lia. }
  destruct S; try discriminate; try (eapply simple; [exact I2|assumption|intros; exact I]).
  - eapply simple; [exact I2|assumption|]. intros g. destruct (p + blen d <=? as_) eqn:E; [|exact I]. apply N.leb_le in E. exact E.
  - eapply simple; [exact I2|assumption|]. intros g. exact H0.
  - eapply simple; [exact I2|assumption|]. intros g. split; [exact H1|]. cbn. lia.
  - (* nogrow *)
    destruct I2 as [FA PL LO PC RT OL UB ID]. constructor; cbn [fsize asize plen dat ub rets pcs] in *; auto.
    + lia.
    + congruence.
    + intros j. destruct (Nat.eq_dec j t) as [->|]; upds; [cbn; lia|]. specialize (PC j). specialize (EX j).
      rewrite H0 in EX. specialize (EX eq_refl). destruct (f j); cbn in *; auto; try (exfalso; apply n; auto; fail). lia.
    + intros j Hj. rewrite upd_other by lia. auto.
  - (* trunc *)
    destruct I2 as [FA PL LO PC RT OL UB ID]. cbn [fsize asize plen dat ub rets pcs resv] in *.
    pose proof (PC t) as Pt. rewrite H in Pt. cbn in Pt.
    assert (forall g i, i < n -> cut g n i = g i) as CUT.
    { intros g i Hi. unfold cut. apply N.ltb_lt in Hi. rewrite Hi. reflexivity. }
    assert (forall p d i, In (p, d) rv -> done_upto (mkSys fs as_ pl da x sh u f rv rt) p d i ->
              done_upto (mkSys fs as_ n (cut da n) x sh u (upd f t (AStore d p n)) rv rt) p d i) as G.
    { intros q e i I. apply done_grow. cbn. intros a A _. destruct (tile_in _ _ _ _ _ T I). rewrite CUT by lia. split; [easy|lia]. }
    pose proof (tile_le _ _ _ T) as TL.
    constructor; cbn [fsize asize plen dat ub rets pcs] in *; auto.
    + intros; lia.
    + lia.
    + intros j. destruct (Nat.eq_dec j t) as [->|]; upds; [cbn; lia|]. pose proof (PC j) as Pj. specialize (EX j).
      rewrite H in EX. specialize (EX eq_refl). destruct (f j) eqn:Ej; cbn in Pj |- *; auto; try (exfalso; apply n0; auto; fail).
      apply (G p0 d0); [|exact Pj]. eapply CR; eauto.
    + intros q e I. apply (G q e); [apply RR; auto|]. apply RT; auto.
    + intros i Hi. rewrite CUT by lia. auto.
    + intros j Hj. rewrite upd_other by lia. auto.
  - (* store *)
    destruct I2 as [FA PL LO PC RT OL UB ID]. cbn [fsize asize plen dat ub rets pcs resv] in *.
    pose proof (PC t) as Pt. rewrite H in Pt. cbn in Pt.
    constructor; cbn [fsize asize plen dat ub rets pcs] in *; auto.
    + lia.
    + intros; lia.
    + intros j. destruct (Nat.eq_dec j t) as [->|]; upds; [cbn; lia|]. pose proof (PC j) as Pj. specialize (EX j).
      rewrite H in EX. specialize (EX eq_refl). destruct (f j) eqn:Ej; cbn in Pj |- *; auto; try (exfalso; apply n0; auto; fail). lia.
    + intros j Hj. rewrite upd_other by lia. auto.
  - (* cas *)
    destruct I2 as [FA PL LO PC RT OL UB ID]. cbn [fsize asize plen dat ub rets pcs resv] in *.
    pose proof (PC t) as Pt. rewrite H in Pt. cbn in Pt.
    constructor; cbn [fsize asize plen dat ub rets pcs] in *; auto.
    + intros j. destruct (Nat.eq_dec j t) as [->|]; upds.
      * destruct k; cbn; [exact I|]. intros j b J. lia.
      * eapply pc_ok_same; [..|apply (PC j)]; reflexivity.
    + intros j Hj. rewrite upd_other by lia. auto.
  - (* shared *)
    eapply simple; [exact I2|assumption|]. intros g j b J. lia.
  - (* copy *)
    destruct I2 as [FA PL LO PC RT OL UB ID]. cbn [fsize asize plen dat ub rets pcs resv] in *.
    pose proof (PC t) as Pt. rewrite H in Pt. cbn in Pt. pose proof (nth_blen _ _ _ H0) as NB.
    pose proof (CR _ _ _ _ H) as IT. destruct (tile_in _ _ _ _ _ T IT) as [TI1 TI2].
    set (pl' := match k with Map => pl | Pos => N.max pl (p + N.of_nat i + 1) end).
    assert (pl <= pl') as PP by (subst pl'; destruct k; lia).
    assert (p + N.of_nat i < pl') as PQ.
    { subst pl'. destruct k; [|lia]. specialize (PL eq_refl). lia. }
    assert (forall q e j, In (q, e) rv -> done_upto (mkSys fs as_ pl da x sh u f rv rt) q e j ->
      forall l c, (l < j)%nat -> nth_error e l = Some c -> updb da (p + N.of_nat i) b (q + N.of_nat l) = c /\ q + N.of_nat l < pl') as G.
    { intros q e j I D l c J E. destruct (D l c J E) as [D1 D2]. cbn in D1, D2. split; [|lia].
      unfold updb. destruct (q + N.of_nat l =? p + N.of_nat i) eqn:EE; [|exact D1]. apply N.eqb_eq in EE.
      pose proof (nth_blen _ _ _ E) as NE.
      destruct (tile_meet _ _ _ q e p d (p + N.of_nat i) T I IT ltac:(lia) ltac:(lia)) as [-> ->].
      assert (l = i) by lia. subst l. congruence. }
    constructor; cbn [fsize asize plen dat ub rets pcs] in *; auto.
    + intros KM. subst pl'. rewrite KM. auto.
    + lia.
    + intros j. destruct (Nat.eq_dec j t) as [->|]; upds.
      * cbn. intros l c J E. destruct (Nat.eq_dec l i) as [->|].
        -- cbn. unfold updb. rewrite N.eqb_refl. split; [congruence|lia].
        -- refine (G p d i IT Pt l c _ E). lia.
      * pose proof (PC j) as Pj. destruct (f j) eqn:Ej; cbn in Pj |- *; auto.
        -- destruct Pj as (A & B & C). repeat split; auto. lia.
        -- refine (G _ _ _ _ Pj). eapply CR; eauto.
    + intros q e I. exact (G q e _ (RR _ _ I) (RT _ _ I)).
    + intros a A. unfold updb. destruct (a =? p + N.of_nat i) eqn:EE; [apply N.eqb_eq in EE; lia|auto].
    + destruct k; auto. rewrite UB. cbn. apply N.leb_gt. lia.
    + intros j Hj. rewrite upd_other by lia. auto.
  - (* return *)
    destruct I2 as [FA PL LO PC RT OL UB ID]. cbn [fsize asize plen dat ub rets pcs resv] in *.
    pose proof (PC t) as Pt. rewrite H in Pt. cbn in Pt. rewrite <- H0 in Pt.
    constructor; cbn [fsize asize plen dat ub rets pcs] in *; auto.
    + intros j. destruct (Nat.eq_dec j t) as [->|]; upds; [exact I|]. eapply pc_ok_same; [..|apply (PC j)]; reflexivity.
    + intros q e [E|I]; [injection E as <- <-; exact Pt|]. apply RT. auto.
    + intros j Hj. rewrite upd_other by lia. auto.
  - pose proof (i_pc _ _ _ _ _ I2 t) as Q. cbn in Q. rewrite H in Q. contradiction.
  - pose proof (i_pc _ _ _ _ _ I2 t) as Q. cbn in Q. rewrite H in Q. contradiction.
  - pose proof (i_pc _ _ _ _ _ I2 t) as Q. cbn in Q. rewrite H in Q. contradiction.
  - pose proof (i_pc _ _ _ _ _ I2 t) as Q. cbn in Q. rewrite H in Q. contradiction.
  - pose proof (i_pc _ _ _ _ _ I2 t) as Q. cbn in Q. rewrite H in Q. contradiction.
  - pose proof (i_pc _ _ _ _ _ I2 t) as Q. cbn in Q. rewrite H in Q. contradiction.
Qed.

Lemma inv2_reach : forall s, reach k false nt lo da0 s -> inv2 k nt lo da0 s.
Proof.
  induction 1.
  - constructor; cbn; auto; try easy.
  - eapply inv2_step; eauto using inv0_reach, inv1_reach.
Qed.
End Inv2.

(** * The theorems *)

(** C38: the regions returned by Append, whatever threads call it concurrently and even if Synchronize is called concurrently,
    are pairwise disjoint and lie behind the original contents and within the file. *)
Theorem C38_disjoint : forall k sync nt lo da s, reach k sync nt lo da s ->
  ForallOrdPairs disjoint (rets s) /\
  forall p d, In (p, d) (rets s) -> lo <= p /\ p + blen d <= fsize s.
Proof.
  intros k sync nt lo da s R. destruct (inv0_reach _ _ _ _ _ _ R) as [T P]. split.
  - apply (pairs_app _ (flights (pcs s) nt)). apply (pairs_perm _ _ P). eapply tile_disjoint; eauto.
  - intros p d I. eapply tile_in; eauto. rewrite P. apply in_or_app. auto.
Qed.

(** Without concurrent Synchronize (which is documented not to be thread-safe): no memory outside the mapping is touched, every
    region whose Append has returned holds its data within the physical file, and the original contents are unchanged. *)
Theorem C38_data : forall k nt lo da s, reach k false nt lo da s ->
  ub s = false /\ Forall (holds_data s) (rets s) /\ (forall i, i < lo -> dat s i = da i /\ i < plen s).
Proof.
  intros k nt lo da s R. destruct (inv2_reach _ _ _ _ _ R) as [FA PL LO PC RT OL UB ID]. split; [exact UB|]. split.
  - apply Forall_forall. intros [p d] I i b E. apply (RT p d I i b); auto.
    apply nth_error_Some. cbn in E. congruence.
  - intros i Hi. split; [auto|lia].
Qed.

(** When no call is in progress, the returned regions in some order fill the file from the original end to the new end. *)
Theorem C38_all : forall k nt lo da s, reach k false nt lo da s -> (forall t, (t < nt)%nat -> pcs s t = Idle) ->
  exists rs, Permutation rs (rets s) /\ tile lo rs (fsize s).
Proof.
  intros k nt lo da s R Q. destruct (inv0_reach _ _ _ _ _ _ R) as [T P]. exists (resv s). split; [|exact T].
  rewrite (flights_idle (pcs s) nt) in P by auto. rewrite app_nil_r in P. exact P.
Qed.

(** While a thread moves the mapping no thread copies data through it. *)
Theorem C38_mapping_stable : forall sync nt lo da s t u, reach Map sync nt lo da s -> (t < nt)%nat -> (u < nt)%nat ->
  has_lock (pcs s t) = true -> copying (pcs s u) = false.
Proof.
  intros sync nt lo da s t u R Ht Hu H. destruct (inv1_reach _ _ _ _ _ _ R) as [X Sh XS _].
  destruct (copying (pcs s u)) eqn:E; auto. pose proof (count_pos _ _ _ _ Ht H). pose proof (count_pos _ _ _ _ Hu E).
  destruct (excl s); cbn in X; [|lia]. specialize (XS eq_refl). lia.
Qed.

(** The restriction to no concurrent Synchronize is needed: a memory-mapped file whose mapping is shrunk between the allocation
    and the reservation is written outside its mapping. *)
Theorem C38_sync_map_refuted : exists s, reach Map true 2 0 (fun _ => 0) s /\ ub s = true.
Proof.
  pose proof (r_init Map true 2 0 (fun _ => 0) 8 ltac:(lia)) as R.
  eapply (r_step _ _ _ _ _ 0%nat) in R; [|lia|apply (a_call _ _ _ [7]); reflexivity].
  eapply (r_step _ _ _ _ _ 0%nat) in R; [|lia|eapply a_load; reflexivity].
  eapply (r_step _ _ _ _ _ 0%nat) in R; [|lia|eapply a_chk; reflexivity].
  eapply (r_step _ _ _ _ _ 1%nat) in R; [|lia|eapply s_call_map; reflexivity].
  eapply (r_step _ _ _ _ _ 1%nat) in R; [|lia|eapply s_lock; reflexivity].
  eapply (r_step _ _ _ _ _ 1%nat) in R; [|lia|eapply s_map; reflexivity].
  eapply (r_step _ _ _ _ _ 1%nat) in R; [|lia|eapply s_cut; reflexivity].
  eapply (r_step _ _ _ _ _ 0%nat) in R; [|lia|eapply (a_cas_ok _ _ _ [7]); reflexivity].
  eapply (r_step _ _ _ _ _ 0%nat) in R; [|lia|eapply a_shared; reflexivity].
  eapply (r_step _ _ _ _ _ 0%nat) in R; [|lia|eapply a_copy; reflexivity].
  eexists. split; [exact R|reflexivity].
Qed.

(** Likewise a positional file loses appended data if Synchronize loaded the file size before the append. *)
Theorem C38_sync_pos_refuted : exists s p d, reach Pos true 2 0 (fun _ => 0) s /\ In (p, d) (rets s) /\ ~ holds_data s (p, d).
Proof.
  pose proof (r_init Pos true 2 0 (fun _ => 0) 8 ltac:(lia)) as R.
  eapply (r_step _ _ _ _ _ 1%nat) in R; [|lia|eapply s_call_pos; reflexivity].
  eapply (r_step _ _ _ _ _ 1%nat) in R; [|lia|eapply s_load; reflexivity].
  eapply (r_step _ _ _ _ _ 0%nat) in R; [|lia|apply (a_call _ _ _ [7]); reflexivity].
  eapply (r_step _ _ _ _ _ 0%nat) in R; [|lia|eapply a_load; reflexivity].
  eapply (r_step _ _ _ _ _ 0%nat) in R; [|lia|eapply a_chk; reflexivity].
  eapply (r_step _ _ _ _ _ 0%nat) in R; [|lia|eapply (a_cas_ok _ _ _ [7]); reflexivity].
  eapply (r_step _ _ _ _ _ 0%nat) in R; [|lia|eapply a_copy; reflexivity].
  eapply (r_step _ _ _ _ _ 0%nat) in R; [|lia|eapply a_ret; reflexivity].
  eapply (r_step _ _ _ _ _ 1%nat) in R; [|lia|eapply s_store; reflexivity].
  eapply (r_step _ _ _ _ _ 1%nat) in R; [|lia|eapply s_trunc; reflexivity].
  eexists. exists 0, [7]. split; [exact R|]. split; [left; reflexivity|]. intros C. destruct (C 0%nat 7 eq_refl) as [C1 _]. discriminate C1.
Qed.

(** A run in which two threads append concurrently and the file is expanded in between. *)
Example C38_ex : exists s, reach Map false 2 3 (fun _ => 9) s /\ rets s = [(3, [7; 8]); (5, [5])] /\ asize s = 16 /\ dat s 4 = 8 /\ dat s 5 = 5.
Proof.
  pose proof (r_init Map false 2 3 (fun _ => 9) 3 ltac:(lia)) as R.
  eapply (r_step _ _ _ _ _ 0%nat) in R; [|lia|apply (a_call _ _ _ [7; 8]); reflexivity].
  eapply (r_step _ _ _ _ _ 1%nat) in R; [|lia|apply (a_call _ _ _ [5]); reflexivity].
  eapply (r_step _ _ _ _ _ 0%nat) in R; [|lia|eapply a_load; reflexivity].
  eapply (r_step _ _ _ _ _ 1%nat) in R; [|lia|eapply a_load; reflexivity].
  eapply (r_step _ _ _ _ _ 0%nat) in R; [|lia|eapply a_chk; reflexivity].
  eapply (r_step _ _ _ _ _ 0%nat) in R; [|lia|eapply a_lock; reflexivity].
  eapply (r_step _ _ _ _ _ 0%nat) in R; [|lia|eapply (a_grow _ _ _ [7; 8] 3 16); [reflexivity|cbv; reflexivity|cbv; discriminate]].
  eapply (r_step _ _ _ _ _ 0%nat) in R; [|lia|eapply a_trunc; reflexivity].
  eapply (r_step _ _ _ _ _ 0%nat) in R; [|lia|eapply a_store; reflexivity].
  eapply (r_step _ _ _ _ _ 0%nat) in R; [|lia|eapply (a_cas_ok _ _ _ [7; 8]); reflexivity].
  eapply (r_step _ _ _ _ _ 1%nat) in R; [|lia|eapply a_chk; reflexivity].
  eapply (r_step _ _ _ _ _ 1%nat) in R; [|lia|eapply a_cas_fail; reflexivity].
  eapply (r_step _ _ _ _ _ 0%nat) in R; [|lia|eapply a_shared; reflexivity].
  eapply (r_step _ _ _ _ _ 0%nat) in R; [|lia|eapply a_copy; reflexivity].
  eapply (r_step _ _ _ _ _ 1%nat) in R; [|lia|eapply a_load; reflexivity].
  eapply (r_step _ _ _ _ _ 1%nat) in R; [|lia|eapply a_chk; reflexivity].
  eapply (r_step _ _ _ _ _ 1%nat) in R; [|lia|eapply (a_cas_ok _ _ _ [5]); reflexivity].
  eapply (r_step _ _ _ _ _ 1%nat) in R; [|lia|eapply a_shared; reflexivity].
  eapply (r_step _ _ _ _ _ 1%nat) in R; [|lia|eapply a_copy; reflexivity].
  eapply (r_step _ _ _ _ _ 1%nat) in R; [|lia|eapply a_ret; reflexivity].
  eapply (r_step _ _ _ _ _ 0%nat) in R; [|lia|eapply a_copy; reflexivity].
  eapply (r_step _ _ _ _ _ 0%nat) in R; [|lia|eapply a_ret; reflexivity].
  eexists. split; [exact R|]. repeat split.
Qed.

Print Assumptions C38_disjoint.
Print Assumptions C38_data.
Print Assumptions C38_all.
Print Assumptions C38_mapping_stable.
Print Assumptions C38_sync_map_refuted.
Print Assumptions C38_sync_pos_refuted.
