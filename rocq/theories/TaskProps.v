(** C36: asynchronous tasks run exactly once. *)
From Coq Require Import List Arith Bool ZArith Lia Permutation.
From Verif Require Import TaskModel.
Import ListNotations.

(** * Specification *)

(** Tasks that workers are doing right now. *)
Fixpoint in_progress (f : nat -> pc) (n : nat) : list nat :=
  match n with O => [] | S k => in_progress f k ++ match f k with WDo x => [x] | _ => [] end end.

(** Stop has been called (at the time the tasks [b] had been added) and has returned; [late]: its waiting time was over
    before it found the queue empty. *)
Definition stopped (nw : nat) (s : sys) (late : bool) (b : list nat) : Prop := pcs s nw = SDone late b.

(** * Program points *)

Definition isw (p : pc) : bool :=
  match p with WLoop | WLock | WCheck | WDo _ | WPred | WSleep | WBlocked | WWake | WExit => true | _ => false end.
Definition isstop (p : pc) : bool :=
  match p with SHead _ | SCheck _ | SNotify _ | SStore _ _ | SNotifyAll _ _ | SJoin _ _ | SDone _ _ => true | _ => false end.
Definition holds (p : pc) : bool := match p with WCheck | WPred | WSleep => true | _ => false end.
Definition after (p : pc) : bool := match p with SNotifyAll _ _ | SJoin _ _ | SDone _ _ => true | _ => false end.
Definition asleep (p : pc) : bool := match p with WSleep | WBlocked => true | _ => false end.

Definition stop_ok (s : sys) (p : pc) : Prop :=
  match p with
  | SHead b | SCheck b | SNotify b => exists r, added s = b ++ r
  | SStore l b | SNotifyAll l b | SJoin l b | SDone l b => (exists r, added s = b ++ r) /\ (l = false -> exists r, popped s = b ++ r)
  | _ => True
  end.

Lemma upd_same : forall f t p, upd f t p t = p.
Proof. intros. unfold upd. rewrite Nat.eqb_refl. reflexivity. Qed.
Lemma upd_other : forall f t p i, i <> t -> upd f t p i = f i.
Proof. intros. unfold upd. apply Nat.eqb_neq in H. rewrite H. reflexivity. Qed.
Lemma wake_blocked : forall f u, f u = WBlocked -> wake_all f u = WWake.
Proof. intros. unfold wake_all. rewrite H. reflexivity. Qed.
Lemma wake_other : forall f u, f u <> WBlocked -> wake_all f u = f u.
Proof. intros. unfold wake_all. destruct (f u); congruence. Qed.

Lemma ip_ext : forall f g n, (forall i, i < n -> match f i with WDo x => [x] | _ => [] end = match g i with WDo x => [x] | _ => [] end) ->
  in_progress f n = in_progress g n.
Proof. induction n; intros H; [reflexivity|]. cbn. rewrite IHn by (intros; apply H; lia). rewrite (H n) by lia. reflexivity. Qed.

Definition todo (p : pc) : list nat := match p with WDo x => [x] | _ => [] end.

Lemma ip_upd : forall f t p n, t < n -> Permutation (in_progress (upd f t p) n ++ todo (f t)) (in_progress f n ++ todo p).
Proof.
  induction n; intros Ht; [lia|]. cbn [in_progress]. change (match f n with WDo x => [x] | _ => [] end) with (todo (f n)).
  change (match upd f t p n with WDo x => [x] | _ => [] end) with (todo (upd f t p n)).
  destruct (Nat.eq_dec t n) as [->|Hn].
  - rewrite upd_same. rewrite (ip_ext (upd f n p) f n) by (intros; rewrite upd_other by lia; reflexivity).
    rewrite <- !app_assoc. apply Permutation_app_head. apply Permutation_app_comm.
  - rewrite (upd_other f t p n) by lia. specialize (IHn ltac:(lia)).
    rewrite <- !app_assoc. rewrite (Permutation_app_comm (todo (f n)) (todo (f t))), (Permutation_app_comm (todo (f n)) (todo p)).
    rewrite !app_assoc. apply Permutation_app_tail. exact IHn.
Qed.

Lemma ip_upd_big : forall f t p n, n <= t -> in_progress (upd f t p) n = in_progress f n.
Proof. intros. apply ip_ext. intros. rewrite upd_other by lia. reflexivity. Qed.

Lemma ip_same : forall f t p n, todo p = [] -> todo (f t) = [] -> in_progress (upd f t p) n = in_progress f n.
Proof.
  intros. apply ip_ext. intros i _. unfold upd. destruct (Nat.eqb_spec i t) as [->|]; [|reflexivity].
  change (todo p = todo (f t)). congruence.
Qed.

Lemma ip_wake : forall f n, in_progress (wake_all f) n = in_progress f n.
Proof. intros. apply ip_ext. intros i _. unfold wake_all. destruct (f i); reflexivity. Qed.

Section P.
Variable nw : nat.

Record inv (s : sys) : Prop := mkInv {
  iv_role : forall t, isw (pcs s t) = (t <? nw);
  iv_stop : forall t, t <> nw -> isstop (pcs s t) = false;
  iv_mtx : forall t, holds (pcs s t) = true <-> mtx s = Some t;
  iv_fifo : added s = popped s ++ q s;
  iv_once : Permutation (popped s) (executed s ++ in_progress (pcs s) nw);
  iv_sleep : forall t, pcs s t = WSleep -> q s = [];
  iv_sok : stop_ok s (pcs s nw);
  iv_run : running s = negb (after (pcs s nw));
  iv_exit : forall t, pcs s t = WExit -> running s = false;
  iv_done : forall l b, pcs s nw = SDone l b -> forall t, t < nw -> pcs s t = WExit;
  iv_alive : q s <> [] -> running s = true -> 0 < nw ->
    (exists t, t < nw /\ asleep (pcs s t) = false) \/ exists t, pcs s t = CNotify
}.


Lemma ip_init : forall n m, in_progress (fun i => if i <? m then WLoop else CIdle) n = [].
Proof. induction n; intros m; [reflexivity|]. cbn [in_progress]. rewrite IHn. destruct (n <? m); reflexivity. Qed.

Lemma inv_init : inv (init nw).
Proof.
  unfold init. constructor; cbn [pcs added popped q executed running mtx]; intros.
  - destruct (t <? nw); reflexivity.
  - destruct (t <? nw); reflexivity.
  - destruct (t <? nw); split; discriminate.
  - reflexivity.
  - rewrite ip_init. constructor.
  - reflexivity.
  - rewrite Nat.ltb_irrefl. exact I.
  - rewrite Nat.ltb_irrefl. reflexivity.
  - destruct (t <? nw); discriminate.
  - rewrite Nat.ltb_irrefl in H. discriminate.
  - congruence.
Qed.

Inductive any (s s' : sys) : Prop :=
| any_step : forall t, step nw t s s' -> any s s'
| any_env : env nw s s' -> any s s'.

Lemma wake_isw : forall f u, isw (wake_all f u) = isw (f u).
Proof. intros. unfold wake_all. destruct (f u); reflexivity. Qed.
Lemma wake_isstop : forall f u, isstop (wake_all f u) = isstop (f u).
Proof. intros. unfold wake_all. destruct (f u); reflexivity. Qed.
Lemma wake_holds : forall f u, holds (wake_all f u) = holds (f u).
Proof. intros. unfold wake_all. destruct (f u); reflexivity. Qed.

Ltac split_upd := unfold upd; repeat match goal with |- context [Nat.eqb ?a ?b] => destruct (Nat.eqb_spec a b); subst end.

Lemma st_role : forall s s', inv s -> any s s' -> forall u, isw (pcs s' u) = (u <? nw).
Proof.
  intros s s' I H u. pose proof (iv_role _ I) as R.
  destruct H as [t H|H]; destruct H; cbn [pcs] in *; split_upd;
    rewrite ?wake_isw; try apply R;
    match goal with F : ?g ?t = _ |- _ = (?t <? nw) => rewrite <- (R t), F; reflexivity end.
Qed.

Lemma st_stop : forall s s', inv s -> any s s' -> forall u, u <> nw -> isstop (pcs s' u) = false.
Proof.
  intros s s' I H u Hu. pose proof (iv_stop _ I) as R.
  destruct H as [t H|H]; destruct H; cbn [pcs] in *; split_upd; try contradiction;
    rewrite ?wake_isstop; try (apply R; exact Hu); try reflexivity;
    match goal with F : ?g ?t = _ |- _ => specialize (R t Hu); rewrite F in R; discriminate R end.
Qed.

Lemma st_mtx : forall s s', inv s -> any s s' -> forall u, holds (pcs s' u) = true <-> mtx s' = Some u.
Proof.
  intros s s' I H u. pose proof (iv_mtx _ I) as R.
  destruct H as [t H|H]; destruct H; cbn [pcs mtx] in *;
    try (match goal with F : ?g ?t = ?p |- _ => lazymatch goal with |- context [upd _ t _] =>
      let A := fresh "A" in pose proof (R t) as A; rewrite F in A; cbn [holds] in A end end);
    pose proof (R u) as B;
    split_upd; rewrite ?wake_holds; cbn [holds];
    repeat match goal with F : ?g ?t = _, B : context [holds (?g ?t)] |- _ => rewrite F in B; cbn [holds] in B end;
    try exact B; try (intuition congruence).
Qed.

Lemma st_fifo : forall s s', inv s -> any s s' -> added s' = popped s' ++ q s'.
Proof.
  intros s s' I H. pose proof (iv_fifo _ I) as R.
  destruct H as [t H|H]; destruct H; cbn [added popped q] in *; try exact R; rewrite R; rewrite <- app_assoc; reflexivity.
Qed.

Lemma wpos : forall s t, inv s -> isw (pcs s t) = true -> t < nw.
Proof. intros s t I H. rewrite (iv_role _ I) in H. apply Nat.ltb_lt in H. exact H. Qed.

Lemma st_once : forall s s', inv s -> any s s' -> Permutation (popped s') (executed s' ++ in_progress (pcs s') nw).
Proof.
  intros s s' I H. pose proof (iv_once _ I) as R.
  destruct H as [t H|H]; pose proof H as H0; destruct H; cbn [popped executed pcs] in *;
    try (rewrite ip_same, ?ip_wake; [exact R|reflexivity|rewrite ?wake_other by congruence; match goal with F : ?g ?t = _ |- todo (?g ?t) = _ => rewrite F; reflexivity end]).
  - assert (Ht : t < nw) by (apply (wpos _ _ I); cbn; rewrite H; reflexivity).
    pose proof (ip_upd f t (WDo k) nw Ht) as U. rewrite H in U. cbn [todo] in U. rewrite app_nil_r in U.
    rewrite U, app_assoc. apply Permutation_app_tail. exact R.
  - assert (Ht : t < nw) by (apply (wpos _ _ I); cbn; rewrite H; reflexivity).
    pose proof (ip_upd f t WLoop nw Ht) as U. rewrite H in U. cbn [todo] in U. rewrite app_nil_r in U.
    rewrite R, <- U, <- !app_assoc. apply Permutation_app_head. apply Permutation_app_comm.
  - assert (t <> u) by congruence. rewrite ip_same; [|reflexivity|rewrite upd_other by assumption; rewrite H; reflexivity].
    rewrite ip_same; [exact R|reflexivity|rewrite H1; reflexivity].
Qed.

Lemma st_sleep : forall s s', inv s -> any s s' -> forall u, pcs s' u = WSleep -> q s' = [].
Proof.
  intros s s' I H u. pose proof (iv_sleep _ I) as R. pose proof (iv_mtx _ I) as M.
  destruct H as [t H|H]; destruct H; cbn [pcs q mtx] in *; split_upd; try discriminate; try reflexivity; try (apply R);
    try (intros E; unfold wake_all in E; destruct (f u) eqn:Eu; try discriminate; apply (R u); exact Eu).
  - intros E. exfalso. pose proof (R _ E). discriminate.
  - intros E. exfalso. assert (A : holds (f u) = true) by (rewrite E; reflexivity). apply M in A. discriminate.
Qed.

Lemma st_run : forall s s', inv s -> any s s' -> running s' = negb (after (pcs s' nw)).
Proof.
  intros s s' I H. pose proof (iv_run _ I) as R. pose proof (iv_stop _ I) as S. pose proof (iv_role _ I) as W.
  destruct H as [t H|H]; destruct H; cbn [pcs running] in *; revert R; split_upd; intros R; try exact R; try rewrite R;
    repeat match goal with F : ?g nw = _ |- _ => rewrite F; clear F end; try reflexivity;
    unfold wake_all; try (destruct (f nw); reflexivity); try congruence.
  all: try (match goal with F : ?g ?t = _, N : nw <> ?t |- _ => specialize (S t (not_eq_sym N)); rewrite F in S; discriminate S end).
Qed.

Lemma prefix_app : forall (A : Type) (a b c d : list A), a = b ++ c -> exists r, a ++ d = b ++ r.
Proof. intros A a b c d ->. exists (c ++ d). rewrite app_assoc. reflexivity. Qed.

Lemma st_sok : forall s s', inv s -> any s s' -> stop_ok s' (pcs s' nw).
Proof.
  intros s s' I H. pose proof (iv_sok _ I) as R. pose proof (iv_stop _ I) as S. pose proof (iv_fifo _ I) as F.
  assert (G : forall x y, added s' = added s ++ x -> popped s' = popped s ++ y -> stop_ok s' (pcs s nw)).
  { intros x y Ea Ep. destruct (pcs s nw); cbn in R |- *; try exact Logic.I; rewrite Ea; rewrite ?Ep;
    try (destruct R as [c R]; eapply prefix_app; exact R);
    (destruct R as [[c R] L]; split; [eapply prefix_app; exact R|]; intros E; destruct (L E) as [d L']; eapply prefix_app; exact L'). }
  destruct H as [t H|H]; destruct H; cbn [pcs added popped q] in *; unfold upd;
  try match goal with |- context [Nat.eqb nw ?t] => destruct (Nat.eqb_spec nw t) as [<-|Hne] end;
  try (match goal with E : ?g ?t = _, N : nw <> ?t |- _ => specialize (S t (not_eq_sym N)); rewrite E in S; discriminate S end);
  rewrite ?wake_other by congruence;
  repeat match goal with E : ?g nw = _, R : context [?g nw] |- _ => rewrite E in R end; try exact Logic.I;
  try (apply (G [] []); rewrite app_nil_r; reflexivity);
  try (apply (G [] [k]); rewrite ?app_nil_r; reflexivity);
  try (apply (G [k] []); rewrite ?app_nil_r; reflexivity); try exact R.
  - cbn in R |- *. destruct (Nat.eqb_spec nw u) as [<-|]; [exact Logic.I|]. apply (G [] []); rewrite app_nil_r; reflexivity.
  - cbn in R |- *. split; [exact R|]. intros E; discriminate.
  - cbn in R |- *. split; [exact R|]. intros _. rewrite app_nil_r in F. rewrite <- F. exact R.
  - rewrite Nat.eqb_refl. exists []. cbn. rewrite app_nil_r. reflexivity.
Qed.

Lemma st_exit : forall s s', inv s -> any s s' -> forall u, pcs s' u = WExit -> running s' = false.
Proof.
  intros s s' I H u. pose proof (iv_exit _ I) as R.
  destruct H as [t H|H]; destruct H; cbn [pcs running] in *; split_upd; try discriminate; try reflexivity; try (apply R);
    try (intros E; unfold wake_all in E; destruct (f u) eqn:Eu; try discriminate; apply (R u); exact Eu).
Qed.

Lemma st_done : forall s s', inv s -> any s s' -> forall l b, pcs s' nw = SDone l b -> forall u, u < nw -> pcs s' u = WExit.
Proof.
  intros s s' I H l b Hd u Hu. pose proof (iv_done _ I) as R. pose proof (iv_stop _ I) as S. pose proof (iv_role _ I) as W.
  destruct H as [t H|H]; destruct H; cbn [pcs] in *; unfold upd in *;
    repeat match goal with
    | |- context [Nat.eqb ?a ?b] => destruct (Nat.eqb_spec a b); subst
    | H : context [Nat.eqb ?a ?b] |- _ => destruct (Nat.eqb_spec a b); subst
    end; try discriminate; try congruence; try lia;
    try (apply (R _ _ Hd); exact Hu);
    try (pose proof (R _ _ Hd _ Hu); congruence);
    try (exfalso; match goal with F : ?g ?t = _, N : nw <> ?t |- _ => specialize (S t (not_eq_sym N)); rewrite F in S; discriminate S end).
  - apply H0. exact Hu.
Qed.

Lemma st_alive : forall s s', inv s -> any s s' -> q s' <> [] -> running s' = true -> 0 < nw ->
  (exists t, t < nw /\ asleep (pcs s' t) = false) \/ exists t, pcs s' t = CNotify.
Proof.
  intros s s' I H Hq Hr Hn. pose proof (iv_alive _ I) as R. pose proof (iv_sleep _ I) as SL. pose proof (iv_role _ I) as W.
  assert (K : forall t p f, (forall u, u <> t -> pcs s' u = f u) -> pcs s' t = p -> pcs s = f -> isw (f t) = true ->
     asleep p = false -> (exists t, t < nw /\ asleep (pcs s' t) = false) \/ exists t, pcs s' t = CNotify).
  { intros t p f Ho Ht <- Hw Ha. left. exists t. split; [apply (wpos _ _ I); exact Hw|]. rewrite Ht. exact Ha. }
  assert (L : forall t f, (forall u, u <> t -> pcs s' u = f u \/ (f u = WBlocked /\ pcs s' u = WWake)) -> pcs s = f -> isw (f t) = false ->
     isw (pcs s' t) = false -> f t <> CNotify -> q s <> [] -> running s = true -> (exists t, t < nw /\ asleep (pcs s' t) = false) \/ exists t, pcs s' t = CNotify).
  { intros t f Ho <- Hw Hw' Hnn Hq0 Hr0. destruct (R Hq0 Hr0 Hn) as [(u & Hu & Ha)|(u & Hu)].
    - left. exists u. split; [exact Hu|]. destruct (Nat.eq_dec u t) as [->|Hne].
      + rewrite W in Hw. apply Nat.ltb_ge in Hw. lia.
      + destruct (Ho u Hne) as [E|[_ E]]; rewrite E; [exact Ha|reflexivity].
    - right. exists u. destruct (Nat.eq_dec u t) as [->|Hne]; [contradiction|]. destruct (Ho u Hne) as [E|[E _]]; [rewrite E; exact Hu|congruence]. }
  destruct H as [t H|H]; destruct H; cbn [pcs q running] in *; try discriminate; try (exfalso; apply Hq; reflexivity);
    try (eapply (K t); [intros; apply upd_other; assumption|apply upd_same|reflexivity|rewrite H; reflexivity|reflexivity]);
    try (eapply (L t); [intros; left; apply upd_other; assumption|reflexivity|rewrite H; reflexivity|rewrite upd_same; reflexivity|congruence|exact Hq|exact Hr]).
  - exfalso. apply Hq. apply (SL t). exact H.
  - right. exists t. apply upd_same.
  - left. exists u. split; [apply (wpos _ _ I); cbn; rewrite H0; reflexivity|]. rewrite upd_other by congruence. rewrite upd_same. reflexivity.
  - left. exists 0. split; [exact Hn|]. assert (Hnb : f 0 <> WBlocked) by apply H0.
    pose proof (W 0) as W0. assert (E0 : 0 <? nw = true) by (apply Nat.ltb_lt; exact Hn). rewrite E0 in W0.
    unfold upd. destruct (Nat.eqb_spec 0 t) as [E|]; [rewrite E in W0; rewrite H in W0; discriminate|].
    destruct (f 0) eqn:F0; try discriminate; try congruence; try reflexivity. exfalso. apply Hq. apply (SL 0). exact F0.
  - eapply (L t); [|reflexivity|rewrite H; reflexivity|rewrite upd_same; reflexivity|congruence|exact Hq|exact Hr].
    intros u Hu. rewrite upd_other by assumption. unfold wake_all. destruct (f u) eqn:Fu; try (left; reflexivity). right. split; reflexivity.
  - eapply (L t); [|reflexivity|rewrite H; reflexivity|rewrite upd_same; reflexivity|congruence|exact Hq|exact Hr].
    intros u Hu. rewrite upd_other by assumption. unfold wake_all. destruct (f u) eqn:Fu; try (left; reflexivity). right. split; reflexivity.
  - eapply (L nw); [intros; left; apply upd_other; assumption|reflexivity|rewrite H; reflexivity|rewrite upd_same; reflexivity|congruence|exact Hq|exact Hr].
Qed.

Lemma inv_any : forall s s', inv s -> any s s' -> inv s'.
Proof.
  intros s s' I H. constructor.
  - exact (st_role _ _ I H).
  - exact (st_stop _ _ I H).
  - exact (st_mtx _ _ I H).
  - exact (st_fifo _ _ I H).
  - exact (st_once _ _ I H).
  - exact (st_sleep _ _ I H).
  - exact (st_sok _ _ I H).
  - exact (st_run _ _ I H).
  - exact (st_exit _ _ I H).
  - exact (st_done _ _ I H).
  - exact (st_alive _ _ I H).
Qed.

Lemma inv_reach : forall s, reach nw s -> inv s.
Proof.
  intros s H. induction H as [|t s s' _ IH H|s s' _ IH H]; [apply inv_init| |].
  - eapply inv_any; [exact IH|]. eapply any_step; exact H.
  - eapply inv_any; [exact IH|]. apply any_env; exact H.
Qed.

(** * Measures *)

Definition emptyb (l : list nat) : bool := match l with [] => true | _ => false end.

Definition mu (e : bool) (p : pc) : nat :=
  match p with
  | WBlocked | WExit | CIdle => 0 | WSleep => 1 | WPred => if e then 2 else 6 | WCheck => 3 | WLock => 4 | WLoop => 5
  | WDo _ => 6 | WWake => 7 | CNotify => 8 | CPush _ => 13 | _ => 0
  end.

Definition mu' (p : pc) : nat :=
  match p with
  | WLoop => 1 | WPred => 2 | WDo _ => 2 | WWake => 3 | WCheck => 3 | WLock => 4 | CNotify => 1 | CPush _ => 2 | SJoin _ _ => 1 | _ => 0
  end.

Fixpoint total (m : pc -> nat) (f : nat -> pc) (n : nat) : nat := match n with O => 0 | S k => total m f k + m (f k) end.

Lemma total_ext : forall m m' f g n, (forall i, i < n -> m (f i) = m' (g i)) -> total m f n = total m' g n.
Proof. induction n; intros H; [reflexivity|]. cbn. rewrite IHn by (intros; apply H; lia). rewrite (H n) by lia. reflexivity. Qed.
Lemma total_le : forall m m' f n, (forall p, m p <= m' p) -> total m f n <= total m' f n.
Proof. induction n; intros H; [reflexivity|]. cbn. specialize (IHn H). specialize (H (f n)). lia. Qed.
Lemma total_upd : forall m f t p n, t < n -> total m (upd f t p) n + m (f t) = total m f n + m p.
Proof.
  induction n; intros Ht; [lia|]. cbn. destruct (Nat.eq_dec t n) as [->|].
  - rewrite upd_same. rewrite (total_ext m m (upd f n p) f n) by (intros; rewrite upd_other by lia; reflexivity). lia.
  - rewrite (upd_other f t p n) by lia. specialize (IHn ltac:(lia)). lia.
Qed.

(** Steps of the methods in progress: no new calls and no spurious wake-ups. *)
Inductive finishing : nat -> sys -> sys -> Prop :=
| f_0 : forall s, finishing 0 s s
| f_S : forall n s t s' s'', step nw t s s' -> finishing n s' s'' -> finishing (S n) s s''.

Definition stuck (s : sys) : Prop := forall t s', ~ step nw t s s'.

(** Threads from [nt] on have not done anything. *)
Definition quiet (nt : nat) (s : sys) : Prop := forall t, nt <= t -> pcs s t = CIdle.

Lemma reach_quiet : forall s, reach nw s -> exists nt, nw < nt /\ quiet nt s.
Proof.
  intros s H.
  assert (U : forall f t p nt, (forall i, nt <= i -> f i = CIdle) -> forall i, max nt (S t) <= i -> upd f t p i = CIdle).
  { intros f t p nt Hf i Hi. rewrite upd_other by lia. apply Hf. lia. }
  induction H as [|t s s' _ (nt & Hn & IH) H|s s' _ (nt & Hn & IH) H].
  - exists (S nw). split; [lia|]. intros t Ht. unfold init; cbn [pcs]. destruct (Nat.ltb_spec t nw); [lia|reflexivity].
  - exists (max nt (S t)). split; [lia|]. unfold quiet in *. destruct H; cbn [pcs] in *; try (apply U; exact IH).
    + intros i Hi. rewrite upd_other by lia. unfold upd. destruct (Nat.eqb_spec i u) as [->|]; [rewrite IH in H0 by lia; discriminate|]. apply IH. lia.
    + intros i Hi. rewrite upd_other by lia. rewrite wake_other; rewrite IH by lia; [reflexivity|discriminate].
    + intros i Hi. rewrite upd_other by lia. rewrite wake_other; rewrite IH by lia; [reflexivity|discriminate].
  - unfold quiet in *. destruct H; cbn [pcs] in *.
    + exists (max nt (S t)). split; [lia|]. apply U; exact IH.
    + exists (max nt (S nw)). split; [lia|]. apply U; exact IH.
    + exists (max nt (S t)). split; [lia|]. apply U; exact IH.
Qed.

Lemma not_quiet : forall nt s t, quiet nt s -> pcs s t <> CIdle -> t < nt.
Proof. intros nt s t H Hn. destruct (le_lt_dec nt t) as [L|L]; [rewrite (H t L) in Hn; congruence|exact L]. Qed.

Lemma quiet_step : forall nt t s s', quiet nt s -> step nw t s s' -> quiet nt s'.
Proof.
  intros nt t s s' Q H.
  assert (Ht : t < nt).
  { apply (not_quiet _ _ _ Q). destruct H; cbn [pcs]; congruence. }
  unfold quiet in *. destruct H; cbn [pcs] in *; intros i Hi; rewrite upd_other by lia; try (apply Q; exact Hi).
  - unfold upd. destruct (Nat.eqb_spec i u) as [->|]; [rewrite Q in H0 by lia; discriminate|]. apply Q. lia.
  - rewrite wake_other; rewrite Q by lia; [reflexivity|discriminate].
  - rewrite wake_other; rewrite Q by lia; [reflexivity|discriminate].
Qed.

Lemma mu_mono : forall p, mu true p <= mu false p.
Proof. destruct p; cbn; lia. Qed.

Definition measure (nt : nat) (s : sys) : nat := total (mu (emptyb (q s))) (pcs s) nt + 4 * length (q s).

Lemma measure_step : forall nt t s s', inv s -> quiet nt s -> running s = true -> pcs s nw = CIdle -> step nw t s s' ->
  measure nt s' < measure nt s /\ running s' = true /\ pcs s' nw = CIdle.
Proof.
  intros nt t s s' I Q Hr Hidle H.
  assert (Ht : t < nt) by (apply (not_quiet _ _ _ Q); destruct H; cbn [pcs]; congruence).
  assert (Hs : isstop (pcs s t) = false).
  { destruct (Nat.eq_dec t nw) as [->|Hne]; [rewrite Hidle; reflexivity|apply (iv_stop _ I); exact Hne]. }
  assert (Hw : isw (pcs s t) = true -> t <> nw) by (intros E ->; rewrite Hidle in E; discriminate).
  unfold measure. destruct H; cbn [pcs q running] in *; try (rewrite H in Hs; discriminate Hs); try discriminate;
    try (rewrite H in Hw; cbn in Hw; specialize (Hw eq_refl); assert (Hw' : nw <> t) by (apply not_eq_sym; exact Hw));
    (split; [|split; [try reflexivity; try exact Hr|try (rewrite upd_other by exact Hw'; exact Hidle)]]);
    try match goal with |- context [upd ?f ?t ?p] => match goal with |- context [total ?m _ _] => pose proof (total_upd m f t p nt Ht) as U; rewrite H in U; cbn [mu] in U; try lia end end.
  - pose proof (total_upd (mu (emptyb Q0)) f t (WDo k) nt Ht) as V. rewrite H in V. cbn [mu] in V. cbn [emptyb length].
    assert (L : total (mu (emptyb Q0)) f nt <= total (mu false) f nt).
    { destruct (emptyb Q0); [apply total_le; apply mu_mono|lia]. }
    lia.
  - cbn [emptyb mu] in *. lia.
  - destruct H0 as [E|E]; [congruence|]. destruct Q0; [congruence|]. cbn [emptyb mu] in *. lia.
  - cbn [emptyb mu] in *. lia.
  - destruct (emptyb Q0); lia.
  - assert (Z : total (mu (emptyb (Q0 ++ [k]))) (upd f t CNotify) nt = total (mu (emptyb Q0)) (upd f t CNotify) nt).
    { apply total_ext. intros i _. unfold upd. destruct (Nat.eqb i t); [reflexivity|].
      destruct (f i) eqn:E; try reflexivity. exfalso. pose proof (iv_mtx _ I i) as M. cbn [pcs mtx] in M. rewrite E in M.
      destruct M as [M _]. specialize (M eq_refl). discriminate. }
    rewrite Z. rewrite app_length. cbn [length].
    pose proof (total_upd (mu (emptyb Q0)) f t CNotify nt Ht) as V. rewrite H in V. cbn [mu] in V. lia.
  - destruct (Nat.eq_dec nw t) as [->|Hne]; [congruence|]. rewrite upd_other by exact Hne. exact Hidle.
  - assert (Hu : u < nt) by (apply (not_quiet _ _ _ Q); cbn [pcs]; congruence).
    pose proof (total_upd (mu (emptyb Q0)) f u WWake nt Hu) as V. rewrite H0 in V. cbn [mu] in V.
    pose proof (total_upd (mu (emptyb Q0)) (upd f u WWake) t CIdle nt Ht) as V2. rewrite upd_other in V2 by congruence.
    rewrite H in V2. cbn [mu] in V2. lia.
  - unfold upd. destruct (Nat.eqb nw t); [reflexivity|]. destruct (Nat.eqb_spec nw u) as [->|]; [congruence|exact Hidle].
  - unfold upd. destruct (Nat.eqb nw t); [reflexivity|exact Hidle].
Qed.

(** The owner of the mutex can always go on. *)
Lemma holder_steps : forall s t, holds (pcs s t) = true -> exists s', step nw t s s'.
Proof.
  intros [Q r m f a p e] t H. cbn in H. destruct (f t) eqn:E; try discriminate.
  - destruct Q as [|k Q]; eexists; [apply w_empty|apply w_pop]; exact E.
  - destruct Q as [|k Q]; [destruct r|].
    + eexists. apply w_pred_false. exact E.
    + eexists. apply w_pred_true; [exact E|left; reflexivity].
    + eexists. apply w_pred_true; [exact E|right; discriminate].
  - eexists. apply w_block. exact E.
Qed.

Lemma stuck_mtx : forall s, inv s -> stuck s -> mtx s = None.
Proof.
  intros s I H. destruct (mtx s) as [t|] eqn:E; [|reflexivity]. exfalso.
  apply (iv_mtx _ I) in E. destruct (holder_steps _ _ E) as [s' G]. exact (H _ _ G).
Qed.

Lemma stuck_worker : forall s t, inv s -> stuck s -> t < nw -> pcs s t = WBlocked \/ pcs s t = WExit.
Proof.
  intros s t I H Ht. pose proof (stuck_mtx _ I H) as M. pose proof (iv_role _ I t) as W.
  apply Nat.ltb_lt in Ht. rewrite Ht in W. destruct s as [Q r m f a p e]. cbn in M, W. subst m.
  destruct (f t) eqn:E; try discriminate W; try (left; exact E); try (right; exact E); exfalso.
  - destruct r; eapply H; [apply w_run|apply w_end]; exact E.
  - eapply H. apply w_lock. exact E.
  - destruct (holder_steps (mkSys Q r None f a p e) t) as [s' G]; [cbn; rewrite E; reflexivity|]. exact (H _ _ G).
  - eapply H. eapply w_do. exact E.
  - destruct (holder_steps (mkSys Q r None f a p e) t) as [s' G]; [cbn; rewrite E; reflexivity|]. exact (H _ _ G).
  - destruct (holder_steps (mkSys Q r None f a p e) t) as [s' G]; [cbn; rewrite E; reflexivity|]. exact (H _ _ G).
  - eapply H. apply w_relock. exact E.
Qed.

Lemma blocked_dec : forall s, inv s -> (exists u, pcs s u = WBlocked) \/ forall u, pcs s u <> WBlocked.
Proof.
  intros s I.
  assert (G : forall n, (exists u, pcs s u = WBlocked) \/ forall u, u < n -> pcs s u <> WBlocked).
  { induction n as [|n [IH|IH]]; [right; lia|left; exact IH|].
    destruct (pcs s n) eqn:E; try (right; intros u Hu; destruct (Nat.eq_dec u n) as [->|]; [congruence|apply IH; lia]).
    left. exists n. exact E. }
  destruct (G nw) as [L|R]; [left; exact L|right]. intros u E. destruct (le_lt_dec nw u) as [L|L]; [|exact (R u L E)].
  pose proof (iv_role _ I u) as W. rewrite E in W. cbn in W. symmetry in W. apply Nat.ltb_lt in W. lia.
Qed.

Lemma stuck_notify : forall s t, inv s -> stuck s -> pcs s t <> CNotify.
Proof.
  intros s t I H E. pose proof (blocked_dec _ I) as B. destruct s as [Q r m f a p e]. cbn in *. destruct B as [[u B]|B].
  - eapply H. eapply c_notify_one; eassumption.
  - eapply H. eapply c_notify_none; eassumption.
Qed.

Lemma ip_none : forall f n, (forall i, i < n -> todo (f i) = []) -> in_progress f n = [].
Proof.
  induction n; intros H; [reflexivity|]. cbn. rewrite IHn by (intros; apply H; lia).
  change (match f n with WDo x => [x] | _ => [] end) with (todo (f n)). rewrite H by lia. reflexivity.
Qed.

(** * C36 *)

(** Whatever the interleaving, every added task is exactly one of: done, being done, still queued; and no other task is done. *)
Theorem C36_exactly_once : forall s, reach nw s ->
  Permutation (added s) (executed s ++ in_progress (pcs s) nw ++ q s).
Proof.
  intros s H. pose proof (inv_reach _ H) as I. rewrite (iv_fifo _ I), app_assoc. apply Permutation_app_tail. exact (iv_once _ I).
Qed.

(** When Stop returns, no worker is left; each added task has been done once or is still in the queue; and unless the waiting
    time of Stop was over, every task added before the call of Stop has been done. *)
Theorem C36_stop : forall s late b, reach nw s -> stopped nw s late b ->
  (forall t, t < nw -> pcs s t = WExit) /\
  Permutation (added s) (executed s ++ q s) /\
  (exists r, added s = b ++ r) /\
  (late = false -> exists r, Permutation (executed s) (b ++ r)).
Proof.
  intros s late b H Hs. pose proof (inv_reach _ H) as I. unfold stopped in Hs.
  pose proof (iv_done _ I _ _ Hs) as D.
  assert (N : in_progress (pcs s) nw = []) by (apply ip_none; intros i Hi; rewrite (D i Hi); reflexivity).
  split; [exact D|]. split; [|split].
  - pose proof (C36_exactly_once _ H) as E. rewrite N in E. exact E.
  - pose proof (iv_sok _ I) as S. rewrite Hs in S. exact (proj1 S).
  - intros L. pose proof (iv_sok _ I) as S. rewrite Hs in S. destruct (proj2 S L) as [r E].
    exists r. pose proof (iv_once _ I) as O. rewrite N, app_nil_r in O. rewrite <- O, E. apply Permutation_refl.
Qed.

(** Tasks do run: as long as Stop is not called, the calls of Add in progress and the workers finish after a bounded number
    of steps in any order, without needing spurious wake-ups, and then every added task has been done. *)
Theorem C36_all_run : forall s, 0 < nw -> reach nw s -> running s = true -> pcs s nw = CIdle -> exists bound,
  forall n s', finishing n s s' -> n <= bound /\ (stuck s' -> q s' = [] /\ Permutation (executed s') (added s')).
Proof.
  intros s Hn H Hr Hi. destruct (reach_quiet _ H) as (nt & Hnt & Q).
  exists (measure nt s). intros n s' F. revert H Hr Hi Q. induction F as [s|n s t s1 s2 Hst F IH]; intros H Hr Hi Q.
  - split; [lia|]. intros K. pose proof (inv_reach _ H) as I.
    assert (B : forall t, t < nw -> pcs s t = WBlocked).
    { intros t Ht. destruct (stuck_worker s t I K Ht) as [E|E]; [exact E|]. pose proof (iv_exit _ I _ E). congruence. }
    assert (Q0 : q s = []).
    { destruct (q s) as [|k Q'] eqn:E; [reflexivity|]. exfalso.
      destruct (iv_alive _ I) as [(t & Ht & A)|(t & A)]; [rewrite E; discriminate|exact Hr|exact Hn| |].
      - rewrite (B t Ht) in A. discriminate.
      - exact (stuck_notify s t I K A). }
    split; [exact Q0|]. pose proof (C36_exactly_once _ H) as E. rewrite Q0, app_nil_r in E.
    rewrite (ip_none (pcs s) nw) in E; [|intros i Hi'; rewrite (B i Hi'); reflexivity]. rewrite app_nil_r in E. symmetry. exact E.
  - destruct (measure_step nt t s s1 (inv_reach _ H) Q Hr Hi Hst) as (D & Hr1 & Hi1).
    destruct (IH (r_step _ _ _ _ H Hst) Hr1 Hi1 (quiet_step _ _ _ _ Q Hst)) as [B S]. split; [lia|exact S].
Qed.

(** Stop returns, under the condition that none of the workers is blocked, or about to block, once Stop has sent its last
    notification. Missing: this condition can fail, see [C36_stop_returns_refuted]. *)
Theorem C36_stop_returns_partial : forall s late b, reach nw s -> pcs s nw = SJoin late b ->
  (forall t, t < nw -> pcs s t <> WSleep /\ pcs s t <> WBlocked) -> exists bound,
  forall n s', finishing n s s' -> n <= bound /\ (stuck s' -> stopped nw s' late b).
Proof.
  intros s late b H Hj Ha. destruct (reach_quiet _ H) as (nt & Hnt & Q).
  exists (total mu' (pcs s) nt). intros n s' F. revert H Hj Ha Q. induction F as [s|n s t s1 s2 Hst F IH]; intros H Hj Ha Q.
  - split; [lia|]. intros K. pose proof (inv_reach _ H) as I. exfalso.
    assert (B : forall t, t < nw -> pcs s t = WExit).
    { intros t Ht. destruct (stuck_worker s t I K Ht) as [E|E]; [|exact E]. destruct (Ha t Ht). congruence. }
    destruct s as [Q0 r m f a p e]. eapply K. eapply s_join; [exact Hj|exact B].
  - pose proof (inv_reach _ H) as I. pose proof (iv_run _ I) as R. rewrite Hj in R. cbn in R.
    assert (Ht : t < nt) by (apply (not_quiet _ _ _ Q); destruct Hst; cbn [pcs]; congruence).
    assert (NB : forall u, pcs s u <> WBlocked).
    { intros u E. destruct (le_lt_dec nw u) as [L|L]; [|exact (proj2 (Ha u L) E)].
      pose proof (iv_role _ I u) as W. rewrite E in W. cbn in W. symmetry in W. apply Nat.ltb_lt in W. lia. }
    assert (NS : forall u, pcs s u <> WSleep).
    { intros u E. destruct (le_lt_dec nw u) as [L|L]; [|exact (proj1 (Ha u L) E)].
      pose proof (iv_role _ I u) as W. rewrite E in W. cbn in W. symmetry in W. apply Nat.ltb_lt in W. lia. }
    destruct (Nat.eq_dec t nw) as [->|Hne].
    + destruct Hst; cbn [pcs] in *; try congruence. rewrite Hj in H0. injection H0 as <- <-.
      inversion F as [s3 E1 E2|n' s3 t' s4 s5 Hst' F' E1 E2]; subst.
      * split; [pose proof (total_upd mu' f nw (SDone late b) nt Ht) as U; rewrite Hj in U; cbn in U; lia|].
        intros _. unfold stopped. cbn. apply upd_same.
      * (* after Stop has returned only calls of Add finish *)
        assert (G : forall n s s', finishing n s s' -> reach nw s -> quiet nt s -> stopped nw s late b ->
                  (forall u, pcs s u <> WSleep /\ pcs s u <> WBlocked) -> (forall u, u < nw -> pcs s u = WExit) ->
                  n <= total mu' (pcs s) nt /\ stopped nw s' late b).
        { clear. intros n s s' F. induction F as [s|n s t s1 s2 Hst F IH]; intros H Q Hd Ha Hx; [split; [lia|exact Hd]|].
          assert (Ht : t < nt) by (apply (not_quiet _ _ _ Q); destruct Hst; cbn [pcs]; congruence).
          pose proof (inv_reach _ H) as I. unfold stopped in Hd.
          assert (Hne : t <> nw) by (intros ->; destruct Hst; cbn [pcs] in *; congruence).
          assert (NW : isw (pcs s t) = false).
          { rewrite (iv_role _ I). apply Nat.ltb_ge. destruct (le_lt_dec nw t) as [L|L]; [exact L|]. exfalso. specialize (Hx t L).
            destruct Hst; cbn [pcs] in *; try congruence. }
          pose proof (iv_stop _ I t Hne) as NST.
          assert (P : total mu' (pcs s1) nt < total mu' (pcs s) nt /\ stopped nw s1 late b /\
                 (forall u, pcs s1 u <> WSleep /\ pcs s1 u <> WBlocked) /\ (forall u, u < nw -> pcs s1 u = WExit)).
          { unfold stopped. destruct Hst; cbn [pcs] in *; rewrite H0 in NW, NST; try discriminate NW; try discriminate NST.
            - pose proof (total_upd mu' f t CNotify nt Ht) as U. rewrite H0 in U. cbn in U.
              split; [lia|]. split; [rewrite upd_other by (apply not_eq_sym; exact Hne); exact Hd|].
              split; intros v; unfold upd; destruct (Nat.eqb_spec v t) as [->|]; try (split; discriminate); try apply Ha; try apply Hx.
              intros L. specialize (Hx _ L). congruence.
            - exfalso. destruct (Ha u). congruence.
            - pose proof (total_upd mu' f t CIdle nt Ht) as U. rewrite H0 in U. cbn in U.
              split; [lia|]. split; [rewrite upd_other by (apply not_eq_sym; exact Hne); exact Hd|].
              split; intros v; unfold upd; destruct (Nat.eqb_spec v t) as [->|]; try (split; discriminate); try apply Ha; try apply Hx.
              intros L. specialize (Hx _ L). congruence. }
          destruct P as (P1 & P2 & P3 & P4).
          destruct (IH (r_step _ _ _ _ H Hst) (quiet_step _ _ _ _ Q Hst) P2 P3 P4) as [B S]. split; [lia|exact S]. }
        assert (St : step nw nw (mkSys Q0 r m f a p e) (mkSys Q0 r m (upd f nw (SDone late b)) a p e)) by (apply s_join; assumption).
        destruct (G _ _ _ F (r_step _ _ _ _ H St) (quiet_step _ _ _ _ Q St)) as [B S].
        { unfold stopped. cbn. apply upd_same. }
        { intros u. cbn. unfold upd. destruct (Nat.eqb u nw); [split; discriminate|split; auto]. }
        { intros u Hu. cbn. rewrite upd_other by lia. apply H1. exact Hu. }
        split; [|intros _; exact S]. cbn [pcs] in B.
        pose proof (total_upd mu' f nw (SDone late b) nt Ht) as U. rewrite Hj in U. cbn [mu'] in U. lia.
    + pose proof (iv_stop _ I t Hne) as NST.
      assert (P : total mu' (pcs s1) nt < total mu' (pcs s) nt /\ pcs s1 nw = SJoin late b /\
             (forall u, u < nw -> pcs s1 u <> WSleep /\ pcs s1 u <> WBlocked)).
      { destruct Hst; cbn [pcs running] in *; try discriminate R; try (rewrite H0 in NST; discriminate NST);
          try (exfalso; eapply NS; eassumption); try (exfalso; eapply NB; eassumption);
          (split; [match goal with |- context [upd ?f ?t ?p] => pose proof (total_upd mu' f t p nt Ht) as U; rewrite H0 in U; cbn [mu'] in U; lia end|]);
          (split; [rewrite upd_other by (apply not_eq_sym; exact Hne); exact Hj|]);
          intros v Hv; unfold upd; destruct (Nat.eqb v t); try (split; discriminate); apply Ha; exact Hv. }
      destruct P as (P1 & P2 & P3).
      destruct (IH (r_step _ _ _ _ H Hst) P2 P3 (quiet_step _ _ _ _ Q Hst)) as [B S]. split; [lia|exact S].
Qed.

End P.

(** With one worker the tasks are done in the order in which they were added. *)
Theorem C36_order : forall s, reach 1 s -> exists rest, added s = executed s ++ rest.
Proof.
  intros s H. pose proof (inv_reach _ _ H) as I0.
  assert (O : popped s = executed s ++ todo (pcs s 0)).
  { induction H as [|t s s' H IH Hst|s s' H IH He]; [reflexivity| |].
    - specialize (IH (inv_reach _ _ H)). pose proof (iv_role _ _ (inv_reach _ _ H)) as W.
      assert (T : forall t, isw (pcs s t) = true -> t = 0).
      { intros u E. rewrite W in E. apply Nat.ltb_lt in E. lia. }
      destruct Hst; cbn [pcs popped executed] in *;
        try (assert (t = 0) as -> by (apply T; rewrite H0; reflexivity); rewrite upd_same; rewrite H0 in IH; cbn [todo] in *;
             rewrite ?app_nil_r in *; subst; reflexivity);
        try (unfold upd; destruct (Nat.eqb_spec 0 t) as [<-|]; [rewrite H0 in IH; exact IH|];
             try exact IH; unfold wake_all; destruct (f 0); exact IH).
      unfold upd. destruct (Nat.eqb_spec 0 t) as [<-|]; [rewrite H0 in IH; exact IH|].
      destruct (Nat.eqb_spec 0 u) as [<-|]; [rewrite H1 in IH; exact IH|exact IH].
    - specialize (IH (inv_reach _ _ H)). destruct He; cbn [pcs popped executed] in *.
      + unfold upd. destruct (Nat.eqb_spec 0 t) as [<-|]; [rewrite H0 in IH; exact IH|exact IH].
      + unfold upd. cbn. exact IH.
      + unfold upd. destruct (Nat.eqb_spec 0 t) as [<-|]; [rewrite H0 in IH; exact IH|exact IH]. }
  exists (todo (pcs s 0) ++ q s). rewrite (iv_fifo _ _ I0), O, <- app_assoc. reflexivity.
Qed.

(** * Lost wake-ups *)

Lemma rs : forall nw t s s', reach nw s -> step nw t s s' -> reach nw s'.
Proof. intros. eapply r_step; eassumption. Qed.
Lemma re : forall nw s s', reach nw s -> env nw s s' -> reach nw s'.
Proof. intros. eapply r_env; eassumption. Qed.

(** "Waiting for them terminates" is false of Stop: it clears running_ and notifies without holding the mutex, so that both
    can fall between a worker's test of the waiting condition and its blocking. The worker then never wakes up, and Stop
    waits for it forever: nothing can happen any more (but for a spurious wake-up or another call). *)
Theorem C36_stop_returns_refuted : exists s b,
  reach 1 s /\ pcs s 1 = SJoin false b /\ pcs s 0 = WBlocked /\ running s = false /\ stuck 1 s.
Proof.
  pose proof (r_init 1) as R. unfold init in R.
  eapply re in R; [|apply e_stop; reflexivity].
  eapply (rs _ 1) in R; [|eapply s_again; reflexivity].
  eapply (rs _ 1) in R; [|eapply s_empty; reflexivity].
  eapply (rs _ 0) in R; [|apply w_run; reflexivity].
  eapply (rs _ 0) in R; [|apply w_lock; reflexivity].
  eapply (rs _ 0) in R; [|apply w_empty; reflexivity].
  eapply (rs _ 0) in R; [|apply w_pred_false; reflexivity].
  eapply (rs _ 1) in R; [|eapply s_store; reflexivity].
  eapply (rs _ 1) in R; [|eapply s_notify_all; reflexivity].
  eapply (rs _ 0) in R; [|apply w_block; reflexivity].
  eexists. exists []. split; [exact R|]. split; [reflexivity|]. split; [reflexivity|]. split; [reflexivity|].
  intros t s' H.
  inversion H; subst; clear H; unfold upd, wake_all in *;
    destruct t as [|[|t]]; cbn in *; try congruence.
  match goal with X : forall u, u < 1 -> _ |- _ => specialize (X 0 ltac:(lia)); cbn in X; congruence end.
Qed.

(** * WaitCounter *)

(** Wait reports success exactly when the counter is zero or less at the time it returns. *)
Theorem C36_wait_result : forall s s' t r, wreach s -> ((exists u, wstep u s s') \/ wenv s s') ->
  wpcs s' t = XRet r -> wpcs s t <> XRet r -> (r = true <-> (wc s' <= 0)%Z).
Proof.
  intros s s' t r _ H E N.
  assert (U : forall f u p, wupd f u p t = XRet r -> f t <> XRet r -> t = u /\ p = XRet r).
  { intros f u p X Y. unfold wupd in X. destruct (Nat.eqb_spec t u); [auto|contradiction]. }
  assert (V : forall f, f t <> XRet r -> wwake f t <> XRet r).
  { intros f Y X. unfold wwake in X. destruct (f t) eqn:G; try congruence; discriminate. }
  destruct H as [[u H]|H]; destruct H; cbn [wpcs wc] in *;
    try (exfalso; apply N; exact E);
    try (apply U in E; [|first [exact N|apply V; exact N]]; destruct E as [-> E]);
    try discriminate E; try (destruct b; discriminate E); try (destruct (c <=? d)%Z; discriminate E).
  - injection E as <-. split; [intros _; exact H0|reflexivity].
  - injection E as <-. symmetry. apply Z.leb_le || (split; intros; apply Z.leb_le; assumption).
  - injection E as <-. symmetry. apply Z.leb_le || (split; intros; apply Z.leb_le; assumption).
Qed.

(** Waiting need not terminate: Done decrements and notifies without the mutex, which can fall between the waiter's test
    and its blocking; the waiter stays blocked although the counter is zero and every Done has finished. *)
Theorem C36_wait_terminates_refuted : exists s t,
  wreach s /\ wc s = 0%Z /\ wpcs s t = XBlocked /\ forall u s', ~ wstep u s s'.
Proof.
  pose proof (wr_init 1) as R.
  eapply wr_env in R; [|apply (v_wait 0); reflexivity].
  eapply (wr_step 0) in R; [|apply x_lock; reflexivity].
  eapply (wr_step 0) in R; [|apply x_more; [reflexivity|lia]].
  eapply wr_env in R; [|apply (v_done 1 1); reflexivity].
  eapply (wr_step 1) in R; [|apply d_notify; reflexivity].
  eapply (wr_step 0) in R; [|apply x_block; reflexivity].
  eexists. exists 0. split; [exact R|]. split; [reflexivity|]. split; [reflexivity|].
  intros u s' H. inversion H; subst; clear H; unfold wupd, wwake in *;
    destruct u as [|[|u]]; cbn in *; congruence.
Qed.

(** * Concrete cases *)

(** Two workers, tasks 7 and 8 added, 7 being done, 8 done; Stop called after the first Add. *)
Example C36_exactly_once_ex : exists s, reach 2 s /\ added s = [7; 8] /\ executed s = [8] /\ in_progress (pcs s) 2 = [7] /\
  pcs s 2 = SHead [7].
Proof.
  pose proof (r_init 2) as R. unfold init in R.
  eapply re in R; [|apply (e_add _ 3 7); reflexivity].
  eapply (rs _ 3) in R; [|eapply c_push; reflexivity].
  eapply re in R; [|apply e_stop; reflexivity].
  eapply re in R; [|apply (e_add _ 4 8); reflexivity].
  eapply (rs _ 4) in R; [|eapply c_push; reflexivity].
  eapply (rs _ 0) in R; [|apply w_run; reflexivity].
  eapply (rs _ 0) in R; [|apply w_lock; reflexivity].
  eapply (rs _ 0) in R; [|apply w_pop; reflexivity].
  eapply (rs _ 1) in R; [|apply w_run; reflexivity].
  eapply (rs _ 1) in R; [|apply w_lock; reflexivity].
  eapply (rs _ 1) in R; [|apply w_pop; reflexivity].
  eapply (rs _ 1) in R; [|eapply w_do; reflexivity].
  eexists. split; [exact R|]. repeat split.
Qed.

(** Stop in time: the task added before it is done when it returns. *)
Example C36_stop_ex : exists s, reach 1 s /\ stopped 1 s false [7] /\ executed s = [7].
Proof.
  pose proof (r_init 1) as R. unfold init in R.
  eapply re in R; [|apply (e_add _ 3 7); reflexivity].
  eapply (rs _ 3) in R; [|eapply c_push; reflexivity].
  eapply re in R; [|apply e_stop; reflexivity].
  eapply (rs _ 0) in R; [|apply w_run; reflexivity].
  eapply (rs _ 0) in R; [|apply w_lock; reflexivity].
  eapply (rs _ 0) in R; [|apply w_pop; reflexivity].
  eapply (rs _ 1) in R; [|eapply s_again; reflexivity].
  eapply (rs _ 1) in R; [|eapply s_empty; reflexivity].
  eapply (rs _ 1) in R; [|eapply s_store; reflexivity].
  eapply (rs _ 1) in R; [|eapply s_notify_all; reflexivity].
  eapply (rs _ 0) in R; [|eapply w_do; reflexivity].
  eapply (rs _ 0) in R; [|apply w_end; reflexivity].
  eapply (rs _ 1) in R; [|eapply s_join; [reflexivity|]].
  - eexists. split; [exact R|]. split; reflexivity.
  - intros u Hu. assert (u = 0) as -> by lia. reflexivity.
Qed.

Print Assumptions C36_exactly_once.
Print Assumptions C36_stop.
Print Assumptions C36_all_run.
Print Assumptions C36_stop_returns_partial.
Print Assumptions C36_order.
Print Assumptions C36_stop_returns_refuted.
Print Assumptions C36_wait_result.
Print Assumptions C36_wait_terminates_refuted.
