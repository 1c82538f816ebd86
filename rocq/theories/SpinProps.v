(** C31: the spin reader-writer locks exclude writers from everybody else, and a lock nobody owns can be taken. *)
From Coq Require Import NArith List Lia Arith Bool.
From Verif Require Import SpinModel.
Import ListNotations.
Local Open Scope N_scope.

(** * Specification *)

(** A thread that has returned from lock(), a successful try_lock() or a successful try_upgrade(). *)
Definition owns_exclusive (s : sys) (t : nat) : Prop := spc s t = HoldX.

(** A thread that has returned from lock_shared(), a successful try_lock_shared() or downgrade(), and has not given the
    ownership back; it may be trying to upgrade. *)
Definition owns_shared (s : sys) (t : nat) : Prop :=
  match spc s t with HoldS | Up _ | UpCheck _ | UpFail => True | _ => False end.

(** A thread inside lock() or try_upgrade() of the write-preferring lock. *)
Definition wants_exclusive (s : sys) (t : nat) : Prop :=
  match spc s t with LockWeak | LockStrong | LockDone | Up _ | UpCheck _ | UpDone | UpFail => True | _ => False end.

(** The counter has not reached the last value before wrapping around. *)
Definition no_wrap (s : sys) : Prop := cnt (sm s) < W32 - 1.

(** * Counting threads *)

Definition isS (p : pc) : bool := match p with HoldS | Up _ | UpCheck _ | UpFail => true | _ => false end.
Definition isX (p : pc) : bool := match p with HoldX | LockDone | UpDone => true | _ => false end.
Definition isW (p : pc) : bool :=
  match p with LockWeak | LockStrong | LockDone | Up _ | UpCheck _ | UpDone | UpFail => true | _ => false end.

Fixpoint count (P : pc -> bool) (f : nat -> pc) (n : nat) : nat :=
  match n with O => O | S k => (count P f k + if P (f k) then 1 else 0)%nat end.

Lemma count_ext : forall P f g n, (forall i, (i < n)%nat -> f i = g i) -> count P f n = count P g n.
Proof.
  induction n; intros; [reflexivity|]. cbn. rewrite IHn by (intros; apply H; lia). rewrite (H n) by lia. reflexivity.
Qed.

Lemma upd_same : forall f t p, upd f t p t = p.
Proof. intros. unfold upd. rewrite Nat.eqb_refl. reflexivity. Qed.
Lemma upd_other : forall f t p i, i <> t -> upd f t p i = f i.
Proof. intros. unfold upd. apply Nat.eqb_neq in H. rewrite H. reflexivity. Qed.

Definition b2n (b : bool) : nat := if b then 1 else 0.

Lemma count_upd : forall P f t p n, (t < n)%nat ->
  (count P (upd f t p) n + b2n (P (f t)) = count P f n + b2n (P p))%nat.
Proof.
  induction n; intros Ht; [lia|]. cbn [count].
  destruct (Nat.eq_dec t n) as [->|Hn].
  - rewrite upd_same. rewrite (count_ext P (upd f n p) f n) by (intros; apply upd_other; lia). unfold b2n. lia.
  - rewrite (upd_other f t p n) by lia. specialize (IHn ltac:(lia)). lia.
Qed.

Lemma count_le : forall P f n, (count P f n <= n)%nat.
Proof. induction n; cbn; [lia|]. destruct (P (f n)); lia. Qed.

Lemma count_pos : forall P f n t, (t < n)%nat -> P (f t) = true -> (1 <= count P f n)%nat.
Proof.
  induction n; intros t Ht HP; [lia|]. cbn. destruct (Nat.eq_dec t n) as [->|]; [rewrite HP; lia|].
  specialize (IHn t ltac:(lia) HP). lia.
Qed.

Lemma count_two : forall P f n t u, (t < n)%nat -> (u < n)%nat -> t <> u -> P (f t) = true -> P (f u) = true -> (2 <= count P f n)%nat.
Proof.
  induction n; intros t u Ht Hu Htu HPt HPu; [lia|]. cbn.
  destruct (Nat.eq_dec t n) as [->|].
  - rewrite HPt. pose proof (count_pos P f n u ltac:(lia) HPu). lia.
  - destruct (Nat.eq_dec u n) as [->|].
    + rewrite HPu. pose proof (count_pos P f n t ltac:(lia) HPt). lia.
    + specialize (IHn t u ltac:(lia) ltac:(lia) Htu HPt HPu). lia.
Qed.

Lemma count_zero : forall P f n, (forall i, (i < n)%nat -> P (f i) = false) -> count P f n = 0%nat.
Proof. induction n; intros; [reflexivity|]. cbn. rewrite (H n) by lia. rewrite IHn; [lia|]. intros; apply H; lia. Qed.

(** * Invariant *)

Definition inv (wp : bool) (nt : nat) (s : sys) : Prop :=
  ((count isX (spc s) nt = 0%nat /\ cnt (sm s) = N.of_nat (count isS (spc s) nt)) \/
   (count isX (spc s) nt = 1%nat /\ count isS (spc s) nt = 0%nat /\ MAX <= cnt (sm s))) /\
  (forall t, match spc s t with ShCas _ v => MAX < v | _ => True end) /\
  (if wp then wan (sm s) = N.of_nat (count isW (spc s) nt) else wan (sm s) = 0) /\
  (wp = false -> forall t, spc s t <> LockDone /\ spc s t <> UpDone /\ spc s t <> UpFail /\ forall b, spc s t <> UpCheck b).

Lemma inv_init : forall wp nt, inv wp nt init.
Proof.
  intros. unfold inv, init; cbn. split; [|split; [|split]].
  - left. split; [apply count_zero; reflexivity|]. rewrite count_zero by reflexivity. reflexivity.
  - intros; exact I.
  - destruct wp; [rewrite count_zero by reflexivity|]; reflexivity.
  - intros _ t. repeat split; discriminate.
Qed.

Lemma inc32_id : forall n, n < W32 - 1 -> inc32 n = n + 1.
Proof. intros. unfold inc32. destruct (N.eqb_spec (n + 1) W32); [unfold W32 in *; lia|reflexivity]. Qed.
Lemma dec32_id : forall n, n <> 0 -> dec32 n = n - 1.
Proof. intros. unfold dec32. destruct (N.eqb_spec n 0); [contradiction|reflexivity]. Qed.

Lemma inv_step : forall wp nt t s s', N.of_nat nt < MAX -> (t < nt)%nat -> no_wrap s -> inv wp nt s -> step wp t s s' -> inv wp nt s'.
Proof.
  intros wp nt t s s' Hnt Ht Hnw (Hc & Hv & Hw & Hp) Hst.
  destruct Hst as [m f m' p' Hts]. unfold no_wrap in Hnw. cbn [sm spc] in *.
  pose proof (count_upd isX f t p' nt Ht) as CX.
  pose proof (count_upd isS f t p' nt Ht) as CS.
  pose proof (count_upd isW f t p' nt Ht) as CW.
  pose proof (count_le isS f nt) as LS. pose proof (count_le isW f nt) as LW.
  pose proof (fun H => count_pos isX f nt t Ht H) as PX.
  pose proof (fun H => count_pos isS f nt t Ht H) as PS.
  pose proof (fun H => count_pos isW f nt t Ht H) as PW.
  pose proof (Hv t) as Hvt.
  assert (Hpt : wp = false -> f t <> LockDone /\ f t <> UpDone /\ f t <> UpFail /\ forall b, f t <> UpCheck b) by (intros E; exact (Hp E t)).
  assert (Hv' : match p' with ShCas _ v => MAX < v | _ => True end ->
     forall i, match upd f t p' i with ShCas _ v => MAX < v | _ => True end).
  { intros G i. unfold upd. destruct (Nat.eqb i t); [exact G|apply Hv]. }
  assert (Hp' : (wp = false -> p' <> LockDone /\ p' <> UpDone /\ p' <> UpFail /\ forall b, p' <> UpCheck b) ->
     (wp = false -> forall i, upd f t p' i <> LockDone /\ upd f t p' i <> UpDone /\ upd f t p' i <> UpFail /\ forall b, upd f t p' i <> UpCheck b)).
  { intros G E i. unfold upd. destruct (Nat.eqb i t); [exact (G E)|exact (Hp E i)]. }
  clear Hv Hp. remember (f t) as q eqn:Eq. clear Eq.
  unfold inv. cbn [sm spc].
  assert (HMW : MAX + 2 < W32) by (unfold MAX, W32; lia).
  assert (HM3 : 3 < MAX) by (unfold MAX; lia).
  clear Ht.
  revert HMW HM3 Hnt. 
  generalize dependent (count isX (upd f t p') nt). generalize dependent (count isS (upd f t p') nt).
  generalize dependent (count isW (upd f t p') nt).
  generalize dependent (count isX f nt). generalize dependent (count isS f nt).
  generalize dependent (count isW f nt).
  intros w LW PW s LS PS x Hc PX w' CW s' CS x' CX HMW HM3 Hnt.
  destruct Hts; cbn [cnt wan] in *; unfold b2n in *;
    try (rewrite inc32_id in * by (destruct wp; lia));
    destruct wp; try discriminate; cbn [isS isX isW negb] in *;
    repeat match goal with
    | H : true = false -> _ |- _ => clear H
    | H : false = false -> _ |- _ => specialize (H eq_refl)
    | b : bool |- _ => destruct b; cbn [isS isX isW sh_end negb] in *
    | |- context [if ?b then _ else _] => destruct b eqn:?; cbn [isS isX isW] in *
    | H : context [if ?b then _ else _] |- _ => destruct b eqn:?; cbn [isS isX isW] in *
    | H : true = true -> _ |- _ => specialize (H eq_refl)
    end;
    try (destruct Hpt as (? & ? & ? & Hpt4); solve [congruence | exfalso; eapply Hpt4; reflexivity]);
    try (rewrite dec32_id in * by lia);
    (split; [try lia|split; [apply Hv'; try exact I; try lia|split;
      [try lia; rewrite ?inc32_id, ?dec32_id by lia; lia|first [intros HH; discriminate HH | (intros _; apply Hp'; [intros _; repeat split; congruence|reflexivity])]]]]).
Qed.

Lemma inv_reach : forall wp nt s, N.of_nat nt < MAX -> reach wp nt no_wrap s -> inv wp nt s.
Proof.
  intros wp nt s Hnt Hr. induction Hr as [|s t s' Hr IH Hok Ht Hst]; [apply inv_init|].
  exact (inv_step _ _ _ _ _ Hnt Ht Hok IH Hst).
Qed.

Lemma reach_idle : forall wp nt ok s t, reach wp nt ok s -> (nt <= t)%nat -> spc s t = Idle.
Proof.
  intros wp nt ok s t Hr Ht. induction Hr as [|s u s' Hr IH Hok Hu Hst]; [reflexivity|].
  destruct Hst as [m f m' p' Hts]. cbn in *. rewrite upd_other by lia. exact IH.
Qed.

Lemma in_range : forall wp nt ok s t, reach wp nt ok s -> spc s t <> Idle -> (t < nt)%nat.
Proof.
  intros wp nt ok s t Hr Hn. destruct (le_lt_dec nt t) as [H|H]; [|exact H].
  exfalso. apply Hn. exact (reach_idle _ _ _ _ _ Hr H).
Qed.

(** * C31 *)

(** The mutual exclusion part of the property, for both mutex classes ([wp]) and any number of threads below 2^31-1:
    whatever the interleaving of lock, try_lock, unlock, lock_shared, try_lock_shared, unlock_shared, try_upgrade and
    downgrade, a thread owning the mutex exclusively is the only owner.  What is missing for the full statement ("all
    interleavings"): the 32-bit counter must not wrap around, see [C31_exclusion_refuted]. *)
Theorem C31_exclusion_partial : forall wp nt s t u,
  N.of_nat nt < MAX -> reach wp nt no_wrap s -> t <> u ->
  owns_exclusive s t -> ~ owns_exclusive s u /\ ~ owns_shared s u.
Proof.
  intros wp nt s t u Hnt Hr Htu Hx.
  destruct (inv_reach _ _ _ Hnt Hr) as (Hc & _ & _ & _).
  unfold owns_exclusive in Hx.
  assert (Ht : (t < nt)%nat) by (apply (in_range _ _ _ _ _ Hr); congruence).
  assert (Hxt : isX (spc s t) = true) by (rewrite Hx; reflexivity).
  pose proof (count_pos isX _ _ _ Ht Hxt) as P1.
  split; intros Hu.
  - assert (Hu' : (u < nt)%nat) by (apply (in_range _ _ _ _ _ Hr); unfold owns_exclusive in Hu; congruence).
    assert (Hxu : isX (spc s u) = true) by (rewrite Hu; reflexivity).
    pose proof (count_two isX _ _ _ _ Ht Hu' Htu Hxt Hxu). lia.
  - unfold owns_shared in Hu.
    assert (Hu' : (u < nt)%nat) by (apply (in_range _ _ _ _ _ Hr); intros E; rewrite E in Hu; exact Hu).
    assert (Hsu : isS (spc s u) = true) by (destruct (spc s u); try contradiction; reflexivity).
    pose proof (count_pos isS _ _ _ Hu' Hsu). lia.
Qed.

(** Nobody owns the mutex: no thread holds it, nor has won the race for it and is about to return. *)
Definition nobody_owns (s : sys) : Prop :=
  forall t, ~ owns_shared s t /\ match spc s t with HoldX | LockDone | UpDone => False | _ => True end.

(** However thread [t] is scheduled alone (weak exchanges may fail spuriously), it gets to [P] within [n] steps. *)
Fixpoint inevitable (wp : bool) (t : nat) (n : nat) (P : sys -> Prop) (s : sys) : Prop :=
  P s \/
  match n with
  | O => False
  | S k => (exists s', step wp t s s') /\ forall s', step wp t s s' -> inevitable wp t k P s'
  end.

Lemma nobody_cnt : forall wp nt s, N.of_nat nt < MAX -> reach wp nt no_wrap s -> nobody_owns s -> cnt (sm s) = 0.
Proof.
  intros wp nt s Hnt Hr Hno. destruct (inv_reach _ _ _ Hnt Hr) as (Hc & _ & Hw & _).
  assert (X0 : count isX (spc s) nt = 0%nat).
  { apply count_zero. intros i _. destruct (Hno i) as [_ H1]. destruct (spc s i); try reflexivity; tauto. }
  assert (S0 : count isS (spc s) nt = 0%nat).
  { apply count_zero. intros i _. destruct (Hno i) as [H1 _]. unfold owns_shared in *. destruct (spc s i); try reflexivity; tauto. }
  rewrite X0, S0 in Hc. lia.
Qed.

Ltac onestep := match goal with H : step _ _ _ _ |- _ => inversion H; subst; clear H end;
  match goal with H : tstep _ _ _ _ _ |- _ => inversion H; subst; clear H end.

(** A mutex that nobody owns can be acquired again, whatever happened before: try_lock() cannot fail, and a thread inside
    lock() owns it after at most three more steps of its own. *)
Theorem C31_free_lock : forall wp nt s t,
  N.of_nat nt < MAX -> reach wp nt no_wrap s -> nobody_owns s ->
  (spc s t = Idle -> exists s', step wp t s s' /\ owns_exclusive s' t) /\
  (spc s t = Idle -> forall s', step wp t s s' -> sm s' = sm s -> spc s' t <> Idle) /\
  (spc s t = LockWeak \/ spc s t = LockStrong -> inevitable wp t 3 (fun s' => owns_exclusive s' t) s).
Proof.
  intros wp nt s t Hnt Hr Hno. pose proof (nobody_cnt _ _ _ Hnt Hr Hno) as Hc.
  destruct s as [[c w] f]. cbn in Hc. subst c. cbn [spc sm].
  split; [|split].
  - intros Ei. eexists. split; [apply s_step; rewrite Ei; apply t_try_ok|]. unfold owns_exclusive; cbn. apply upd_same.
  - intros Ei s' Hst Hm. inversion Hst as [m g m' p' Hts E1 E2]. subst. rewrite Ei in Hts. cbn in *. rewrite upd_same.
    inversion Hts; subst; try discriminate; try congruence.
  - assert (D : forall w' f', f' t = LockDone -> inevitable wp t 1 (fun s' => owns_exclusive s' t) (mkSys (mkMem MAX w') f')).
    { intros w' f' E. right. split.
      - eexists. apply s_step. rewrite E. apply t_lock_done.
      - intros s' Hst. inversion Hst as [m g m' p' Hts E1 E2]. subst. rewrite E in Hts. inversion Hts; subst.
        left. unfold owns_exclusive; cbn. apply upd_same. }
    assert (W : forall w' f' p n, p = (if wp then LockDone else HoldX) -> (1 <= n)%nat ->
              inevitable wp t n (fun s' => owns_exclusive s' t) (mkSys (mkMem MAX w') (upd f' t p))).
    { intros w' f' p n E Hn. destruct wp.
      - destruct n; [lia|]. destruct (D w' (upd f' t p)) as [G|G].
        + rewrite upd_same; exact E.
        + left. exact G.
        + right. destruct G as [Ge Ga]. split; [exact Ge|]. intros s' Hs'. specialize (Ga s' Hs'). cbn in Ga.
          destruct Ga as [Ga|[]]. destruct n; left; exact Ga.
      - destruct n; left; unfold owns_exclusive; cbn; rewrite upd_same; exact E. }
    assert (St : forall f', f' t = LockStrong -> inevitable wp t 2 (fun s' => owns_exclusive s' t) (mkSys (mkMem 0 w) f')).
    { intros f' E. right. split.
      - eexists. apply s_step. rewrite E. apply t_strong_ok.
      - intros s' Hst. inversion Hst as [m g m' p' Hts E1 E2]. subst. rewrite E in Hts. inversion Hts; subst; [|congruence].
        apply W; [reflexivity|lia]. }
    intros [Ei|Ei].
    + right. split.
      * eexists. apply s_step. rewrite Ei. apply t_weak_ok.
      * intros s' Hst. inversion Hst as [m g m' p' Hts E1 E2]. subst. rewrite Ei in Hts. inversion Hts; subst.
        -- apply W; [reflexivity|lia].
        -- apply St. apply upd_same.
    + destruct (St f Ei) as [G|[Ge Ga]]; [left; exact G|]. right. split; [exact Ge|].
      intros s' Hs'. specialize (Ga s' Hs').
      destruct Ga as [Ga|[Ge' Ga']]; [left; exact Ga|]. right. split; [exact Ge'|].
      intros s'' Hs''. specialize (Ga' s'' Hs''). destruct Ga' as [Ga'|[]]. left. exact Ga'.
Qed.

(** Shared ownership: with no exclusive owner (and, for the write-preferring lock, nobody waiting for exclusive ownership),
    a thread in lock_shared() or try_lock_shared() becomes a shared owner in two steps, however many readers there are. *)
Theorem C31_shared_lock : forall wp nt s t once,
  N.of_nat nt < MAX -> reach wp nt no_wrap s ->
  (forall u, match spc s u with HoldX | LockDone | UpDone => False | _ => True end) ->
  (wp = true -> forall u, ~ wants_exclusive s u) ->
  spc s t = ShStart once -> inevitable wp t 2 (fun s' => owns_shared s' t) s.
Proof.
  intros wp nt s t once Hnt Hr Hx Hw0 Ht. destruct (inv_reach _ _ _ Hnt Hr) as (Hc & _ & Hw & _).
  assert (X0 : count isX (spc s) nt = 0%nat).
  { apply count_zero. intros i _. specialize (Hx i). destruct (spc s i); try reflexivity; tauto. }
  assert (Hlt : cnt (sm s) < MAX) by (pose proof (count_le isS (spc s) nt); lia).
  destruct s as [[c w] f]. cbn [spc sm cnt wan] in *.
  assert (Hw1 : wp = true -> w = 0).
  { intros ->. rewrite Hw. rewrite count_zero; [reflexivity|]. intros i _. specialize (Hw0 eq_refl i).
    unfold wants_exclusive in Hw0. cbn [spc] in Hw0. destruct (f i); try reflexivity; tauto. }
  assert (A : forall f', f' t = ShAdd once -> inevitable wp t 1 (fun s' => owns_shared s' t) (mkSys (mkMem c w) f')).
  { intros f' E. right. split.
    - eexists. apply s_step. rewrite E. apply t_sh_add_ok. exact Hlt.
    - intros s' Hst. inversion Hst as [m g m' p' Hts E1 E2]. subst. rewrite E in Hts. inversion Hts; subst; [|lia].
      left. unfold owns_shared; cbn. rewrite upd_same. exact I. }
  right. split.
  - destruct wp.
    + eexists. apply s_step. rewrite Ht. apply t_sh_wan_free; [reflexivity|auto].
    + eexists. apply s_step. rewrite Ht. apply t_sh_nowan. reflexivity.
  - intros s' Hst. inversion Hst as [m g m' p' Hts E1 E2]. subst. rewrite Ht in Hts.
    inversion Hts; subst; try (apply A; apply upd_same).
    exfalso. match goal with H : _ <> 0 |- _ => apply H; apply Hw1; reflexivity end.
Qed.

(** Upgrading: when thread [t] is the only shared owner, its try_upgrade() succeeds in at most two steps, for either value of its argument. *)
Theorem C31_upgrade : forall wp nt s t wait,
  N.of_nat nt < MAX -> reach wp nt no_wrap s -> spc s t = Up wait ->
  (forall u, u <> t -> ~ owns_shared s u) ->
  inevitable wp t 2 (fun s' => owns_exclusive s' t) s.
Proof.
  intros wp nt s t wait Hnt Hr Ht Hall. destruct (inv_reach _ _ _ Hnt Hr) as (Hc & _ & Hw & _).
  assert (Hlt : (t < nt)%nat) by (apply (in_range _ _ _ _ _ Hr); congruence).
  assert (Hs1 : isS (spc s t) = true) by (rewrite Ht; reflexivity).
  assert (H1 : count isS (spc s) nt = 1%nat).
  { pose proof (count_upd isS (spc s) t Idle nt Hlt) as U. rewrite Hs1 in U. cbn in U.
    rewrite (count_zero isS (upd (spc s) t Idle) nt) in U; [lia|].
    intros i _. unfold upd. destruct (Nat.eqb_spec i t) as [->|Hi]; [reflexivity|].
    specialize (Hall i Hi). unfold owns_shared in Hall. destruct (spc s i); try reflexivity; tauto. }
  rewrite H1 in Hc.
  destruct s as [[c w] f]. cbn [spc sm cnt wan] in *.
  assert (c = 1) as -> by lia.
  right. split.
  - eexists. apply s_step. rewrite Ht. apply t_up_ok.
  - intros s' Hst. inversion Hst as [m g m' p' Hts E1 E2]. subst. rewrite Ht in Hts. inversion Hts; subst; try congruence.
    destruct wp.
    + right. split.
      * eexists. apply s_step. rewrite upd_same. apply t_up_done.
      * intros s'' Hst2. inversion Hst2 as [m2 g2 m2' p2' Hts2 F1 F2]. subst. rewrite upd_same in Hts2.
        inversion Hts2; subst. left. unfold owns_exclusive; cbn. apply upd_same.
    + left. unfold owns_exclusive; cbn. apply upd_same.
Qed.

(** * The counter can wrap around *)

Definition anywhere (s : sys) : Prop := True.

Lemma reach_tstep : forall wp nt t m f m' p' q,
  reach wp nt anywhere (mkSys m f) -> (t < nt)%nat -> f t = q -> tstep wp m q m' p' ->
  reach wp nt anywhere (mkSys m' (upd f t p')).
Proof.
  intros wp nt t m f m' p' q Hr Ht Hq Hts. subst q. eapply r_step; [exact Hr|exact I|exact Ht|]. apply s_step. exact Hts.
Qed.

(** Two readers that keep disturbing each other's reset push the counter up while the writer holds the lock. *)
Lemma climb : forall n, N.of_nat n + MAX + 1 < W32 -> exists f a b,
  reach false 3 anywhere (mkSys (mkMem (MAX + 1 + N.of_nat n) 0) f) /\ f 0%nat = HoldX /\
  a <> b /\ (0 < a < 3)%nat /\ (0 < b < 3)%nat /\
  f a = ShCas false (MAX + 1 + N.of_nat n) /\ f b = ShAdd false.
Proof.
  induction n; intros Hn.
  - assert (R0 : reach false 3 anywhere (mkSys (mkMem 0 0) (fun _ => Idle))) by apply r_init.
    eapply (reach_tstep _ _ 0%nat) in R0; [|lia|reflexivity|apply t_try_ok].
    eapply (reach_tstep _ _ 1%nat) in R0; [|lia|reflexivity|apply (t_sh false MAX 0 false)].
    eapply (reach_tstep _ _ 1%nat) in R0; [|lia|reflexivity|apply t_sh_nowan; reflexivity].
    eapply (reach_tstep _ _ 1%nat) in R0; [|lia|reflexivity|apply t_sh_add_fail; lia].
    eapply (reach_tstep _ _ 1%nat) in R0; [|lia|reflexivity|apply t_sh_load_big; rewrite inc32_id by (unfold MAX, W32; lia); lia].
    eapply (reach_tstep _ _ 2%nat) in R0; [|lia|reflexivity|apply (t_sh false _ 0 false)].
    eapply (reach_tstep _ _ 2%nat) in R0; [|lia|reflexivity|apply t_sh_nowan; reflexivity].
    rewrite inc32_id in R0 by (unfold MAX, W32; lia).
    replace (MAX + 1 + N.of_nat 0) with (MAX + 1) by lia.
    eexists; exists 1%nat, 2%nat. split; [exact R0|]. repeat split; try lia; reflexivity.
  - destruct (IHn ltac:(lia)) as (f & a & b & R & F0 & Hab & Ha & Hb & Fa & Fb).
    eapply (reach_tstep _ _ b) in R; [|lia|exact Fb|apply t_sh_add_fail; lia].
    rewrite inc32_id in R by (unfold MAX, W32 in *; lia).
    eapply (reach_tstep _ _ b) in R; [|lia|apply upd_same|apply t_sh_load_big; lia].
    eapply (reach_tstep _ _ a) in R; [|lia|rewrite !upd_other by lia; exact Fa|apply t_sh_cas_fail].
    eapply (reach_tstep _ _ a) in R; [|lia|apply upd_same|apply t_sh_nowan; reflexivity].
    replace (MAX + 1 + N.of_nat (S n)) with (MAX + 1 + N.of_nat n + 1) by lia.
    eexists; exists b, a. split; [exact R|].
    rewrite !upd_same. rewrite !(upd_other _ a _ b) by lia. rewrite upd_same. rewrite !upd_other by lia.
    repeat split; try lia; try assumption.
Qed.

(** Mutual exclusion "for all interleavings" is false of the code: while a writer holds the lock, two threads in lock_shared()
    whose attempts to reset the counter keep failing raise it by one per turn; after 2^31 turns the 32-bit counter wraps to
    0 and a reader is let in beside the writer. *)
Theorem C31_exclusion_refuted : exists s t u,
  reach false 3 anywhere s /\ t <> u /\ owns_exclusive s t /\ owns_shared s u.
Proof.
  destruct (climb (N.to_nat 2147483647)) as (f & a & b & R & F0 & Hab & Ha & Hb & Fa & Fb).
  { rewrite N2Nat.id. reflexivity. }
  rewrite N2Nat.id in R, Fa. change (MAX + 1 + 2147483647) with 4294967295 in *.
  eapply (reach_tstep _ _ b) in R; [|lia|exact Fb|apply t_sh_add_fail; unfold MAX; lia].
  change (inc32 4294967295) with 0 in R.
  eapply (reach_tstep _ _ a) in R; [|lia|rewrite !upd_other by lia; exact Fa|apply t_sh_cas_fail].
  eapply (reach_tstep _ _ a) in R; [|lia|apply upd_same|apply t_sh_nowan; reflexivity].
  eapply (reach_tstep _ _ a) in R; [|lia|apply upd_same|apply t_sh_add_ok; unfold MAX; lia].
  eexists. exists 0%nat, a. split; [exact R|]. split; [lia|]. unfold owns_exclusive, owns_shared. cbn [spc].
  split; [rewrite !upd_other by lia; exact F0|]. rewrite upd_same. exact I.
Qed.

(** * SpinMutex *)

(** At most one thread is past lock() or a successful try_lock(), for any number of threads and any interleaving; when none
    is, the next test_and_set of any thread acquires the mutex. *)
Theorem C31_spin_mutex : forall b f, mreach b f ->
  (forall t u, f t = MHold -> f u = MHold -> t = u) /\
  ((forall t, f t <> MHold) -> forall t b' p', f t = MSpin -> mtstep b (f t) b' p' -> p' = MHold) /\
  ((forall t, f t <> MHold) -> forall t, f t = MIdle -> mtstep b MIdle true MHold).
Proof.
  intros b f H.
  assert (I : (b = false /\ forall t, f t <> MHold) \/ (b = true /\ exists t, f t = MHold /\ forall u, f u = MHold -> u = t)).
  { induction H as [|b f t b' p' H IH Hs].
    - left. split; [reflexivity|]. intros; discriminate.
    - remember (f t) as q eqn:Eq. inversion Hs; subst b' p'; clear Hs.
      + subst q. destruct IH as [[-> IH]|[-> (h & Hh & IH)]]; [left|right]; (split; [reflexivity|]).
        * intros u. destruct (Nat.eqb_spec u t); [discriminate|apply IH].
        * exists h. assert (Hht : h <> t) by congruence. apply Nat.eqb_neq in Hht. rewrite Hht. split; [exact Hh|].
          intros u. destruct (Nat.eqb_spec u t); [discriminate|apply IH].
      + destruct IH as [[-> IH]|[-> (h & Hh & IH)]]; right; (split; [reflexivity|]).
        * exists t. rewrite Nat.eqb_refl. split; [reflexivity|]. intros u.
          destruct (Nat.eqb_spec u t); [auto|]. intros E. exfalso. exact (IH _ E).
        * exists h. assert (Hht : h <> t) by congruence. apply Nat.eqb_neq in Hht. rewrite Hht. split; [exact Hh|].
          intros u. destruct (Nat.eqb_spec u t); [discriminate|apply IH].
      + destruct IH as [[-> IH]|[-> (h & Hh & IH)]]; right; (split; [reflexivity|]).
        * exists t. rewrite Nat.eqb_refl. split; [reflexivity|]. intros u.
          destruct (Nat.eqb_spec u t); [auto|]. intros E. exfalso. exact (IH _ E).
        * exists h. assert (Hht : h <> t) by congruence. apply Nat.eqb_neq in Hht. rewrite Hht. split; [exact Hh|].
          intros u. destruct (Nat.eqb_spec u t); [discriminate|apply IH].
      + left. split; [reflexivity|]. intros u. destruct (Nat.eqb_spec u t) as [->|Hu]; [discriminate|].
        destruct IH as [[_ IH]|[_ (h & Hh & IH)]]; [apply IH|]. intros E. apply Hu. rewrite (IH _ E). symmetry. apply IH. congruence. }
  split; [|split].
  - intros t u Ht Hu. destruct I as [[_ I]|[_ (h & _ & I)]]; [exfalso; exact (I _ Ht)|]. rewrite (I _ Ht), (I _ Hu). reflexivity.
  - intros Hno t b' p' Ht Hs. destruct I as [[-> _]|[_ (h & Hh & _)]]; [|exfalso; exact (Hno _ Hh)].
    rewrite Ht in Hs. inversion Hs; reflexivity.
  - intros Hno t Ht. destruct I as [[-> _]|[_ (h & Hh & _)]]; [|exfalso; exact (Hno _ Hh)]. apply (m_try false).
Qed.

(** * Concrete cases *)

Lemma rt : forall wp nt t m f m' p' q,
  reach wp nt no_wrap (mkSys m f) -> cnt m < W32 - 1 -> (t < nt)%nat -> f t = q -> tstep wp m q m' p' ->
  reach wp nt no_wrap (mkSys m' (upd f t p')).
Proof.
  intros wp nt t m f m' p' q Hr Hn Ht Hq Hts. subst q. eapply r_step; [exact Hr|exact Hn|exact Ht|]. apply s_step. exact Hts.
Qed.

(** Two readers, one leaves, the other upgrades while a third thread spins in lock_shared(): a writer with a disturbed counter. *)
Example C31_exclusion_ex : exists s,
  reach false 3 no_wrap s /\ owns_exclusive s 1%nat /\ cnt (sm s) = MAX + 1 /\ spc s 2%nat = ShLoad false.
Proof.
  assert (R : reach false 3 no_wrap (mkSys (mkMem 0 0) (fun _ => Idle))) by apply r_init.
  eapply (rt _ _ 0%nat) in R; [|reflexivity|lia|reflexivity|apply (t_sh false 0 0 true)].
  eapply (rt _ _ 0%nat) in R; [|reflexivity|lia|reflexivity|apply t_sh_nowan; reflexivity].
  eapply (rt _ _ 0%nat) in R; [|reflexivity|lia|reflexivity|apply t_sh_add_ok; reflexivity].
  eapply (rt _ _ 1%nat) in R; [|reflexivity|lia|reflexivity|apply (t_sh false 1 0 false)].
  eapply (rt _ _ 1%nat) in R; [|reflexivity|lia|reflexivity|apply t_sh_nowan; reflexivity].
  eapply (rt _ _ 1%nat) in R; [|reflexivity|lia|reflexivity|apply t_sh_add_ok; reflexivity].
  eapply (rt _ _ 0%nat) in R; [|reflexivity|lia|reflexivity|apply t_unlock_sh].
  eapply (rt _ _ 1%nat) in R; [|reflexivity|lia|reflexivity|apply (t_up false _ _ true)].
  eapply (rt _ _ 1%nat) in R; [|reflexivity|lia|reflexivity|apply t_up_ok].
  eapply (rt _ _ 2%nat) in R; [|reflexivity|lia|reflexivity|apply (t_sh false MAX 0 false)].
  eapply (rt _ _ 2%nat) in R; [|reflexivity|lia|reflexivity|apply t_sh_nowan; reflexivity].
  eapply (rt _ _ 2%nat) in R; [|reflexivity|lia|reflexivity|apply t_sh_add_fail; discriminate].
  eexists. split; [exact R|]. repeat split.
Qed.

(** A writer has come and gone while a reader was spinning: nobody owns the lock and another thread is inside lock(). *)
Example C31_free_lock_ex : exists s,
  reach true 2 no_wrap s /\ nobody_owns s /\ spc s 0%nat = LockStrong /\ spc s 1%nat = ShLoad false /\ wan (sm s) = 1.
Proof.
  assert (R : reach true 2 no_wrap (mkSys (mkMem 0 0) (fun _ => Idle))) by apply r_init.
  eapply (rt _ _ 0%nat) in R; [|reflexivity|lia|reflexivity|apply t_try_ok].
  eapply (rt _ _ 1%nat) in R; [|reflexivity|lia|reflexivity|apply (t_sh true MAX 0 false)].
  eapply (rt _ _ 1%nat) in R; [|reflexivity|lia|reflexivity|apply t_sh_wan_free; reflexivity].
  eapply (rt _ _ 1%nat) in R; [|reflexivity|lia|reflexivity|apply t_sh_add_fail; discriminate].
  eapply (rt _ _ 0%nat) in R; [|reflexivity|lia|reflexivity|apply t_unlock].
  eapply (rt _ _ 0%nat) in R; [|reflexivity|lia|reflexivity|apply (t_lock true 0 0)].
  eapply (rt _ _ 0%nat) in R; [|reflexivity|lia|reflexivity|apply t_weak_fail].
  eexists. split; [exact R|]. split; [|repeat split].
  intros t. unfold owns_shared. cbn. unfold upd.
  destruct t as [|[|t]]; cbn; split; auto.
Qed.

Print Assumptions C31_exclusion_partial.
Print Assumptions C31_free_lock.
Print Assumptions C31_shared_lock.
Print Assumptions C31_upgrade.
Print Assumptions C31_exclusion_refuted.
Print Assumptions C31_spin_mutex.
