(** C54: SignalBroker, KeySignalBroker.  Source: /repo/tkrzw_thread_util.h. *)
From Coq Require Import List Arith Bool Lia.
Import ListNotations.
From Verif Require Import SignalModel.

(** * Specification: calls as parts of a history *)
Section Spec.
  Context {K : Type}.
  (** Events that are no Wait (no Send) of thread [t]. *)
  Definition no_wait (t : nat) (e : ev K) : Prop := match e with EWait u _ _ | EWaitRet u _ => u <> t | _ => True end.
  Definition no_send (t : nat) (e : ev K) : Prop := match e with ESend u _ _ | ESendRet u _ => u <> t | _ => True end.
  (** At the end of a history, a Wait or a Send for the key [k] is running in the thread. *)
  Definition waiting (tr : list (ev K)) (t : nat) (k : K) : Prop := exists p1 inf p2, tr = p1 ++ EWait t k inf :: p2 /\ Forall (no_wait t) p2.
  Definition sending (tr : list (ev K)) (t : nat) (k : K) : Prop := exists p1 all p2, tr = p1 ++ ESend t k all :: p2 /\ Forall (no_send t) p2.
  (** The last Wait of [t] is for [k], and at some moment since its call a Send for [k] was running. *)
  Definition met_w (tr : list (ev K)) (t : nat) (k : K) : Prop := exists p1 inf p2 p3 u,
    tr = p1 ++ EWait t k inf :: p2 ++ p3 /\ Forall (no_wait t) (p2 ++ p3) /\ sending (p1 ++ EWait t k inf :: p2) u k.
  Definition met_s (tr : list (ev K)) (t : nat) (k : K) : Prop := exists p1 all p2 p3 u,
    tr = p1 ++ ESend t k all :: p2 ++ p3 /\ Forall (no_send t) (p2 ++ p3) /\ waiting (p1 ++ ESend t k all :: p2) u k.
  (** No Wait has a time limit; every Send notifies all. *)
  Definition unlimited (tr : list (ev K)) : Prop := Forall (fun e => match e with EWait _ _ inf => inf = true | _ => True end) tr.
  Definition to_all (tr : list (ev K)) : Prop := Forall (fun e => match e with ESend _ _ all => all = true | _ => True end) tr.

  Lemma last_split (P : ev K -> Prop) p1 a p2 : forall p1' a' p2', ~ P a -> ~ P a' -> Forall P p2 -> Forall P p2' -> p1 ++ a :: p2 = p1' ++ a' :: p2' -> p1 = p1' /\ a = a' /\ p2 = p2'.
  Proof.
    induction p1 as [|x p1 IH]; intros [|x' p1'] a' p2' Na Na' F F' E; cbn in E; injection E as E1 E2.
    - auto.
    - subst. exfalso. rewrite Forall_forall in F. apply Na'. apply F. apply in_or_app. right. left. reflexivity.
    - subst. exfalso. rewrite Forall_forall in F'. apply Na. apply F'. apply in_or_app. right. left. reflexivity.
    - destruct (IH _ _ _ Na Na' F F' E2) as (-> & -> & ->). subst. auto.
  Qed.
  Lemma last_wait t p1 k i p2 p1' k' i' p2' : Forall (no_wait t) p2 -> Forall (no_wait t) p2' -> p1 ++ EWait t k i :: p2 = p1' ++ EWait t k' i' :: p2' ->
    p1 = p1' /\ k = k' /\ i = i' /\ p2 = p2'.
  Proof.
    intros F F' E. destruct (last_split (no_wait t) p1 (EWait t k i) p2 p1' (EWait t k' i') p2') as (X & Y & Z); [intros X; exact (X eq_refl)|intros X; exact (X eq_refl)|exact F|exact F'|exact E|].
    injection Y as -> ->. auto.
  Qed.
  Lemma last_send t p1 k i p2 p1' k' i' p2' : Forall (no_send t) p2 -> Forall (no_send t) p2' -> p1 ++ ESend t k i :: p2 = p1' ++ ESend t k' i' :: p2' ->
    p1 = p1' /\ k = k' /\ i = i' /\ p2 = p2'.
  Proof.
    intros F F' E. destruct (last_split (no_send t) p1 (ESend t k i) p2 p1' (ESend t k' i') p2') as (X & Y & Z); [intros X; exact (X eq_refl)|intros X; exact (X eq_refl)|exact F|exact F'|exact E|].
    injection Y as -> ->. auto.
  Qed.
  Lemma waiting_more tr t k e : waiting tr t k -> no_wait t e -> waiting (tr ++ [e]) t k.
  Proof. intros (p1 & inf & p2 & -> & F) N. exists p1, inf, (p2 ++ [e]). split; [rewrite <- app_assoc; reflexivity|]. apply Forall_app. auto. Qed.
  Lemma sending_more tr t k e : sending tr t k -> no_send t e -> sending (tr ++ [e]) t k.
  Proof. intros (p1 & inf & p2 & -> & F) N. exists p1, inf, (p2 ++ [e]). split; [rewrite <- app_assoc; reflexivity|]. apply Forall_app. auto. Qed.
  Lemma met_w_more tr t k e : met_w tr t k -> no_wait t e -> met_w (tr ++ [e]) t k.
  Proof.
    intros (p1 & inf & p2 & p3 & u & -> & F & S) N. exists p1, inf, p2, (p3 ++ [e]), u. split; [rewrite <- !app_assoc; cbn; rewrite <- !app_assoc; reflexivity|].
    split; [|exact S]. rewrite app_assoc. apply Forall_app. auto.
  Qed.
  Lemma met_s_more tr t k e : met_s tr t k -> no_send t e -> met_s (tr ++ [e]) t k.
  Proof.
    intros (p1 & inf & p2 & p3 & u & -> & F & S) N. exists p1, inf, p2, (p3 ++ [e]), u. split; [rewrite <- !app_assoc; cbn; rewrite <- !app_assoc; reflexivity|].
    split; [|exact S]. rewrite app_assoc. apply Forall_app. auto.
  Qed.
  Lemma meet tr t u k : waiting tr t k -> sending tr u k -> met_w tr t k /\ met_s tr u k.
  Proof.
    intros W S. split.
    - destruct W as (p1 & inf & p2 & -> & F). exists p1, inf, p2, [], u. rewrite !app_nil_r. auto.
    - destruct S as (p1 & inf & p2 & -> & F). exists p1, inf, p2, [], t. rewrite !app_nil_r. auto.
  Qed.
End Spec.

Section Inv.
  Context {K : Type}.
  Variable keq : K -> K -> bool.
  Hypothesis keq_spec : forall a b, keq a b = true <-> a = b.
  Variable n : nat.
  Notation step := (step keq n).
  Notation run := (run keq n).

  (** The key a thread waits for, with the count taken or not, and the key it sends. *)
  Definition wkey (p : pc K) : option K :=
    match p with
    | WMut k _ | WInc k _ | WLoop k _ | WUnl k _ | WEnter k _ | Sleep k _ | WWoke k _ _ | WRel k _ _ | WChk k _ _ | WRet k _ => Some k
    | _ => None
    end.
  Definition ckey (p : pc K) : option K :=
    match p with WLoop k _ | WUnl k _ | WEnter k _ | Sleep k _ | WWoke k _ _ | WRel k _ _ | WChk k _ _ => Some k | _ => None end.
  Definition skey (p : pc K) : option K := match p with SLock k _ | SChk k _ | SNot k _ | SGo k _ | SRet k _ => Some k | _ => None end.
  Definition is (o : option K) (k : K) : bool := match o with Some x => keq k x | None => false end.
  Fixpoint num (f : nat -> pc K) (k : K) (j : nat) : nat := match j with 0 => 0 | S j => num f k j + (if is (ckey (f j)) k then 1 else 0) end.
  Lemma keq_refl k : keq k k = true. Proof. apply keq_spec. reflexivity. Qed.
  Lemma is_spec o k : is o k = true <-> o = Some k.
  Proof. destruct o as [x|]; cbn; [rewrite keq_spec; split; congruence|split; discriminate]. Qed.
  Lemma upd_same (f : nat -> pc K) t p : upd f t p t = p.
  Proof. unfold upd. rewrite Nat.eqb_refl. reflexivity. Qed.
  Lemma upd_other (f : nat -> pc K) t p u : u <> t -> upd f t p u = f u.
  Proof. intros H. unfold upd. apply Nat.eqb_neq in H. rewrite H. reflexivity. Qed.
  Lemma num_ext f g k j : (forall u, u < j -> ckey (f u) = ckey (g u)) -> num f k j = num g k j.
  Proof. induction j; intros H; cbn; [reflexivity|]. rewrite IHj by (intros; apply H; lia). rewrite H by lia. reflexivity. Qed.
  Lemma num_upd f t p k j : t < j -> num (upd f t p) k j + (if is (ckey (f t)) k then 1 else 0) = num f k j + (if is (ckey p) k then 1 else 0).
  Proof.
    induction j; intros H; [lia|]. cbn. destruct (Nat.eq_dec t j) as [->|NE].
    - rewrite upd_same. rewrite (num_ext (upd f j p) f) by (intros; rewrite upd_other by lia; reflexivity). lia.
    - rewrite (upd_other f t p j) by lia. specialize (IHj ltac:(lia)). lia.
  Qed.
  Lemma num_pos f k j : 1 <= num f k j -> exists t, ckey (f t) = Some k.
  Proof. induction j; cbn; [lia|]. destruct (is (ckey (f j)) k) eqn:E; [intros _; exists j; apply is_spec, E|]. intros H. apply IHj. lia. Qed.
  Lemma ckey_wkey p k : ckey p = Some k -> wkey p = Some k.
  Proof. destruct p; cbn; congruence. Qed.

  Record inv (tr : list (ev K)) (y : sys K) : Prop := {
    v_fin : forall t, n <= t -> y_pc y t = Idle;
    v_mutex : forall t u, t <> u -> has_mutex (y_pc y t) = true -> has_mutex (y_pc y u) = false;
    v_excl : forall t u, t <> u -> has_excl (y_pc y t) = true -> has_excl (y_pc y u) = false /\ has_shared (y_pc y u) = false;
    v_wait : forall t k, wkey (y_pc y t) = Some k -> waiting tr t k;
    v_send : forall t k, skey (y_pc y t) = Some k -> sending tr t k;
    v_num : forall k, y_c y k <= num (y_pc y) k n;
    v_told : forall t k, (exists all, y_pc y t = SNot k all \/ y_pc y t = SGo k all) \/ y_pc y t = SRet k true -> met_s tr t k;
    v_inf : unlimited tr -> forall t, match y_pc y t with
      | WMut _ inf | WInc _ inf | WLoop _ inf | WUnl _ inf | WEnter _ inf | Sleep _ inf => inf = true
      | WWoke _ inf tmo | WRel _ inf tmo | WChk _ inf tmo => inf = true /\ tmo = false
      | WRet _ b => b = true
      | _ => True
      end;
    v_count : unlimited tr -> forall t k, ckey (y_pc y t) = Some k -> met_w tr t k \/ 1 <= y_c y k;
    v_true : unlimited tr -> forall t k, y_pc y t = WRet k true -> met_w tr t k;
    v_all : to_all tr -> forall t, match y_pc y t with SLock _ all | SChk _ all | SNot _ all | SGo _ all => all = true | _ => True end;
    v_low : unlimited tr -> forall t k inf, y_pc y t = WUnl k inf \/ y_pc y t = WEnter k inf -> 1 <= y_c y k;
    v_sleep : unlimited tr -> to_all tr -> forall t k inf, y_pc y t = Sleep k inf ->
      1 <= y_c y k \/ exists u k', y_pc y u = SNot k' true \/ y_pc y u = SGo k' true }.

  Lemma inv_init : inv [] (init K).
  Proof.
    constructor; cbn; try discriminate; auto; try (intros; discriminate); try (intros; intuition discriminate).
    - intros k. lia.
    - intros t k [(all & [X|X])|X]; discriminate.
  Qed.

  Lemma lt_n tr y t : inv tr y -> y_pc y t <> Idle -> t < n.
  Proof. intros V H. destruct (Nat.lt_ge_cases t n); [assumption|]. destruct H. apply (v_fin _ _ V). assumption. Qed.
  Lemma unlimited_app (tr : list (ev K)) e : unlimited (tr ++ [e]) -> unlimited tr. Proof. intros H. apply Forall_app in H. apply H. Qed.
  Lemma to_all_app tr e : @to_all K (tr ++ [e]) -> to_all tr. Proof. intros H. apply Forall_app in H. apply H. Qed.

  Definition infok (p : pc K) : Prop :=
    match p with
    | WMut _ inf | WInc _ inf | WLoop _ inf | WUnl _ inf | WEnter _ inf | Sleep _ inf => inf = true
    | WWoke _ inf tmo | WRel _ inf tmo | WChk _ inf tmo => inf = true /\ tmo = false
    | WRet _ b => b = true
    | _ => True
    end.
  Definition allok (p : pc K) : Prop := match p with SLock _ all | SChk _ all | SNot _ all | SGo _ all => all = true | _ => True end.
  Definition told (p : pc K) (k : K) : Prop := (exists all, p = SNot k all \/ p = SGo k all) \/ p = SRet k true.
  Definition notifying (p : pc K) : Prop := exists k, p = SNot k true \/ p = SGo k true.

  Lemma upd_inv tr y t p' c' tr' : inv tr y -> t < n ->
    (tr' = tr \/ exists e, tr' = tr ++ [e] /\ forall u, u <> t -> no_wait u e /\ no_send u e) ->
    (has_mutex p' = true -> has_mutex (y_pc y t) = true \/ forall u, u <> t -> has_mutex (y_pc y u) = false) ->
    (has_excl p' = true -> forall u, u <> t -> has_excl (y_pc y u) = false /\ has_shared (y_pc y u) = false) ->
    (has_shared p' = true -> has_shared (y_pc y t) = true \/ forall u, u <> t -> has_excl (y_pc y u) = false) ->
    (forall k, wkey p' = Some k -> waiting tr' t k) -> (forall k, skey p' = Some k -> sending tr' t k) ->
    (forall k, c' k <= num (upd (y_pc y) t p') k n) -> (forall k, told p' k -> met_s tr' t k) ->
    (unlimited tr' -> infok p') -> (unlimited tr' -> forall k, ckey p' = Some k -> met_w tr' t k \/ 1 <= c' k) ->
    (unlimited tr' -> forall u k, u <> t -> ckey (y_pc y u) = Some k -> 1 <= y_c y k -> met_w tr' u k \/ 1 <= c' k) ->
    (unlimited tr' -> forall k, p' = WRet k true -> met_w tr' t k) -> (to_all tr' -> allok p') ->
    (unlimited tr' -> forall k inf, p' = WUnl k inf \/ p' = WEnter k inf -> 1 <= c' k) ->
    (unlimited tr' -> forall u k inf, u <> t -> y_pc y u = WUnl k inf \/ y_pc y u = WEnter k inf -> 1 <= y_c y k -> 1 <= c' k) ->
    (unlimited tr' -> forall k inf, p' = Sleep k inf -> 1 <= c' k) ->
    (unlimited tr' -> to_all tr' -> forall k, 1 <= y_c y k -> 1 <= c' k \/ notifying p') ->
    (notifying (y_pc y t) -> notifying p' \/ (to_all tr' -> forall u k inf, y_pc y u <> Sleep k inf)) ->
    inv tr' (mkSys c' (upd (y_pc y) t p')).
  Proof.
    intros V Ht TR M1 X1 S1 W1 SE1 N1 T1 I1 C1 C2 R1 A1 L1 L2 P1 P2 P3. destruct V as [V1 V2 V3 V4 V5 V6 V7 V8 V9 V10 V11 V12 V13].
    assert (MW : forall u k, u <> t -> waiting tr u k -> waiting tr' u k).
    { intros u k NE H. destruct TR as [->|(e & -> & Q)]; [exact H|]. apply waiting_more; [exact H|apply Q, NE]. }
    assert (MS : forall u k, u <> t -> sending tr u k -> sending tr' u k).
    { intros u k NE H. destruct TR as [->|(e & -> & Q)]; [exact H|]. apply sending_more; [exact H|apply Q, NE]. }
    assert (MMW : forall u k, u <> t -> met_w tr u k -> met_w tr' u k).
    { intros u k NE H. destruct TR as [->|(e & -> & Q)]; [exact H|]. apply met_w_more; [exact H|apply Q, NE]. }
    assert (MMS : forall u k, u <> t -> met_s tr u k -> met_s tr' u k).
    { intros u k NE H. destruct TR as [->|(e & -> & Q)]; [exact H|]. apply met_s_more; [exact H|apply Q, NE]. }
    assert (UL : unlimited tr' -> unlimited tr) by (destruct TR as [->|(e & -> & Q)]; [auto|apply unlimited_app]).
    assert (TA : to_all tr' -> to_all tr) by (destruct TR as [->|(e & -> & Q)]; [auto|apply to_all_app]).
    constructor; cbn [y_c y_pc].
    - intros u Hu. rewrite upd_other by lia. auto.
    - intros u v NE. destruct (Nat.eq_dec u t) as [->|X], (Nat.eq_dec v t) as [->|Y]; try congruence; rewrite ?upd_same; rewrite ?upd_other by assumption; intros H.
      + destruct (M1 H) as [H'|H']; [apply (V2 t v); auto|apply H'; assumption].
      + destruct (has_mutex p') eqn:E; [|reflexivity]. destruct (M1 eq_refl) as [H'|H']; [rewrite (V2 t u) in H; [discriminate|auto|exact H']|rewrite H' in H by assumption; discriminate].
      + apply (V2 u v); auto.
    - intros u v NE. destruct (Nat.eq_dec u t) as [->|X], (Nat.eq_dec v t) as [->|Y]; try congruence; rewrite ?upd_same; rewrite ?upd_other by assumption; intros H.
      + apply X1; auto.
      + split.
        * destruct (has_excl p') eqn:E; [|reflexivity]. destruct (X1 eq_refl u X) as [Z _]. congruence.
        * destruct (has_shared p') eqn:E; [|reflexivity]. destruct (S1 eq_refl) as [Z|Z]; [|rewrite Z in H by assumption; discriminate].
          destruct (V3 u t NE H) as [_ Z']. congruence.
      + apply (V3 u v); auto.
    - intros u k. destruct (Nat.eq_dec u t) as [->|X]; rewrite ?upd_same; rewrite ?upd_other by assumption; auto.
    - intros u k. destruct (Nat.eq_dec u t) as [->|X]; rewrite ?upd_same; rewrite ?upd_other by assumption; auto.
    - exact N1.
    - intros u k. destruct (Nat.eq_dec u t) as [->|X]; rewrite ?upd_same; rewrite ?upd_other by assumption; [apply T1|auto].
    - intros U u. destruct (Nat.eq_dec u t) as [->|X]; rewrite ?upd_same; rewrite ?upd_other by assumption; [apply (I1 U)|apply (V8 (UL U) u)].
    - intros U u k. destruct (Nat.eq_dec u t) as [->|X]; rewrite ?upd_same; rewrite ?upd_other by assumption; [apply (C1 U)|]. intros H.
      destruct (V9 (UL U) u k H) as [Z|Z]; [left; auto|apply (C2 U u k X H Z)].
    - intros U u k. destruct (Nat.eq_dec u t) as [->|X]; rewrite ?upd_same; rewrite ?upd_other by assumption; [apply (R1 U)|]. intros H. apply MMW; [exact X|]. apply (V10 (UL U) u k H).
    - intros U u. destruct (Nat.eq_dec u t) as [->|X]; rewrite ?upd_same; rewrite ?upd_other by assumption; [apply (A1 U)|apply (V11 (TA U) u)].
    - intros U u k inf. destruct (Nat.eq_dec u t) as [->|X]; rewrite ?upd_same; rewrite ?upd_other by assumption; [apply (L1 U)|]. intros H. apply (L2 U u k inf X H). apply (V12 (UL U) u k inf H).
    - intros U A u k inf. destruct (Nat.eq_dec u t) as [->|X]; rewrite ?upd_same; rewrite ?upd_other by assumption; [intros H; left; apply (P1 U k inf H)|]. intros H.
      assert (NT : notifying p' -> exists v k', upd (y_pc y) t p' v = SNot k' true \/ upd (y_pc y) t p' v = SGo k' true) by (intros (k' & Z); exists t, k'; rewrite upd_same; exact Z).
      destruct (V13 (UL U) (TA A) u k inf H) as [Z|(v & k' & Z)].
      + destruct (P2 U A k Z) as [Q|Q]; auto.
      + right. destruct (Nat.eq_dec v t) as [->|Y]; [destruct (P3 (ex_intro _ k' Z)) as [Q|Q]; [apply NT, Q|destruct (Q A u k inf H)]|]. exists v, k'. rewrite upd_other by exact Y. exact Z.
  Qed.
  (** A step that changes only the program point, and no key. *)
  Lemma quiet_inv tr y t p' : inv tr y -> y_pc y t <> Idle ->
    (has_mutex p' = true -> has_mutex (y_pc y t) = true \/ forall u, u <> t -> has_mutex (y_pc y u) = false) ->
    (has_excl p' = true -> forall u, u <> t -> has_excl (y_pc y u) = false /\ has_shared (y_pc y u) = false) ->
    (has_shared p' = true -> has_shared (y_pc y t) = true \/ forall u, u <> t -> has_excl (y_pc y u) = false) ->
    (forall k, wkey p' = Some k -> wkey (y_pc y t) = Some k) -> (forall k, skey p' = Some k -> skey (y_pc y t) = Some k) ->
    ckey p' = ckey (y_pc y t) -> (forall k, told p' k -> told (y_pc y t) k) ->
    (infok (y_pc y t) -> infok p') -> (forall k, p' <> WRet k true) -> (allok (y_pc y t) -> allok p') ->
    (forall k inf, p' = WUnl k inf \/ p' = WEnter k inf \/ p' = Sleep k inf -> 1 <= y_c y k \/ y_pc y t = WUnl k inf \/ y_pc y t = WEnter k inf) ->
    (notifying (y_pc y t) -> notifying p' \/ (to_all tr -> forall u k inf, y_pc y u <> Sleep k inf)) ->
    inv tr (mkSys (y_c y) (upd (y_pc y) t p')).
  Proof.
    intros V NI M1 X1 S1 W1 SE1 CK T1 I1 R1 A1 L1 P3. pose proof (lt_n _ _ _ V NI) as Ht.
    apply upd_inv with (tr := tr); auto.
    - intros k H. apply (v_wait _ _ V). auto.
    - intros k H. apply (v_send _ _ V). auto.
    - intros k. pose proof (v_num _ _ V k) as X. pose proof (num_upd (y_pc y) t p' k n Ht) as Y. rewrite CK in Y. lia.
    - intros k H. apply (v_told _ _ V). apply T1, H.
    - intros U. apply I1. apply (v_inf _ _ V U t).
    - intros U k H. rewrite CK in H. apply (v_count _ _ V U t k H).
    - intros U k H. destruct (R1 _ H).
    - intros U. apply A1. apply (v_all _ _ V U t).
    - intros U k inf H. destruct (L1 k inf) as [X|X]; [tauto|exact X|]. apply (v_low _ _ V U t k inf X).
    - intros U k inf H. destruct (L1 k inf) as [X|X]; [tauto|exact X|]. apply (v_low _ _ V U t k inf X).
  Qed.

  Definition app_ev (tr : list (ev K)) (e : ev K) : list (ev K) := match e with ETau => tr | _ => tr ++ [e] end.
  Lemma set_same c k v : set_c keq c k v k = v. Proof. unfold set_c. rewrite keq_refl. reflexivity. Qed.
  Lemma set_ge c k x : 1 <= c x -> 1 <= set_c keq c k (S (c k)) x.
  Proof. intros H. unfold set_c. destruct (keq k x); lia. Qed.

  Ltac ok := try (intros; discriminate); try (intros; intuition discriminate); try (intros (?k & [?H|?H]); discriminate); auto.
  Ltac tolds := let k := fresh "k" in let H := fresh "H" in let H1 := fresh "H" in intros k [[? [H1|H1]]|H1]; try discriminate; injection H1 as; subst.
  Ltac qt t E := apply quiet_inv; [assumption|rewrite E; discriminate|rewrite ?E; cbn; auto ..]; ok; try (tolds).

  Lemma wake_inv tr y f : inv tr y -> (forall u, f u = y_pc y u \/ f u = wake (y_pc y u)) -> inv tr (mkSys (y_c y) f).
  Proof.
    intros V H.
    assert (D : forall u, f u = y_pc y u \/ exists k inf, y_pc y u = Sleep k inf /\ f u = WWoke k inf false).
    { intros u. destruct (H u) as [X|X]; [auto|]. destruct (y_pc y u) eqn:E; cbn in X; auto. right. eauto. }
    assert (DM : forall u, has_mutex (f u) = has_mutex (y_pc y u)) by (intros u; destruct (D u) as [->|(k & i & -> & ->)]; reflexivity).
    assert (DS : forall u, has_shared (f u) = has_shared (y_pc y u)) by (intros u; destruct (D u) as [->|(k & i & -> & ->)]; reflexivity).
    assert (DX : forall u, has_excl (f u) = has_excl (y_pc y u)) by (intros u; destruct (D u) as [->|(k & i & -> & ->)]; reflexivity).
    assert (DW : forall u, wkey (f u) = wkey (y_pc y u)) by (intros u; destruct (D u) as [->|(k & i & -> & ->)]; reflexivity).
    assert (DC : forall u, ckey (f u) = ckey (y_pc y u)) by (intros u; destruct (D u) as [->|(k & i & -> & ->)]; reflexivity).
    assert (DK : forall u, skey (f u) = skey (y_pc y u)) by (intros u; destruct (D u) as [->|(k & i & -> & ->)]; reflexivity).
    destruct V as [V1 V2 V3 V4 V5 V6 V7 V8 V9 V10 V11 V12 V13]. constructor; cbn [y_pc y_c].
    - intros t Ht. destruct (D t) as [->|(k & i & E & _)]; [auto|]. rewrite V1 in E by exact Ht. discriminate.
    - intros t u. rewrite !DM. apply V2.
    - intros t u. rewrite !DX, DS. apply V3.
    - intros t k. rewrite DW. apply V4.
    - intros t k. rewrite DK. apply V5.
    - intros k. rewrite (num_ext f (y_pc y)) by (intros; apply DC). apply V6.
    - intros t k. destruct (D t) as [->|(k' & i & E & ->)]; [apply V7|]. intros [[? [X|X]]|X]; discriminate.
    - intros U t. specialize (V8 U t). destruct (D t) as [->|(k' & i & E & ->)]; [apply V8|]. rewrite E in V8. auto.
    - intros U t k. rewrite DC. apply (V9 U).
    - intros U t k. destruct (D t) as [->|(k' & i & E & ->)]; [apply (V10 U)|discriminate].
    - intros U t. destruct (D t) as [->|(k' & i & E & ->)]; [apply (V11 U t)|exact I].
    - intros U t k inf. destruct (D t) as [->|(k' & i & E & ->)]; [apply (V12 U)|intros [X|X]; discriminate].
    - intros U A t k inf. destruct (D t) as [->|(k' & i & E & ->)]; [|discriminate]. intros X. destruct (V13 U A t k inf X) as [Y|(u & k' & Y)]; [auto|].
      right. exists u, k'. destruct (D u) as [->|(k2 & i & E & _)]; [exact Y|]. rewrite E in Y. destruct Y; discriminate.
  Qed.

  Lemma step_inv tr y e y' : inv tr y -> step y e y' -> inv (app_ev tr e) y'.
  Proof.
    intros V S. destruct S; cbn [app_ev];
      match goal with E : y_pc y ?u = ?p |- _ => assert (Ht : u < n) by (first [assumption|apply (lt_n _ _ _ V); rewrite E; discriminate]) end.
    - (* make *) apply upd_inv with (tr := tr); cbn; ok.
      + right. exists (EMake t k). split; [reflexivity|]. intros; cbn; auto.
      + intros k0. pose proof (v_num _ _ V k0). pose proof (num_upd (y_pc y) t (WLock k) k0 n Ht) as Q. rewrite H0 in Q. cbn in Q. lia.
      + tolds.
      + rewrite H0. intros (? & [?|?]); discriminate.
    - (* made *) qt t H.
    - (* drop *) apply upd_inv with (tr := tr); cbn; ok.
      + right. exists (EDrop t). split; [reflexivity|]. intros; cbn; auto.
      + intros k0. pose proof (v_num _ _ V k0). pose proof (num_upd (y_pc y) t Idle k0 n Ht) as Q. rewrite H in Q. cbn in Q. lia.
      + tolds.
      + rewrite H. intros (? & [?|?]); discriminate.
    - (* wait *) apply upd_inv with (tr := tr); cbn; rewrite ?H; cbn; ok.
      + right. exists (EWait t k inf). split; [reflexivity|]. intros; cbn; auto.
      + intros k0 X. injection X as <-. exists tr, inf, []. split; [reflexivity|constructor].
      + intros k0. pose proof (v_num _ _ V k0). pose proof (num_upd (y_pc y) t (WMut k inf) k0 n Ht) as Q. rewrite H in Q. cbn in Q. lia.
      + tolds.
      + intros U. apply Forall_app in U. destruct U as [_ U]. inversion U. assumption.
    - (* mut *) qt t H.
    - (* inc *) assert (HM : forall u, u <> t -> has_mutex (y_pc y u) = false) by (intros u NE; apply (v_mutex _ _ V t u); [auto|rewrite H; reflexivity]).
      apply upd_inv with (tr := tr); cbn; rewrite ?H; cbn; ok.
      + intros k0 X. apply (v_wait _ _ V). rewrite H. exact X.
      + intros k0. pose proof (v_num _ _ V k0). pose proof (num_upd (y_pc y) t (WLoop k inf) k0 n Ht) as Q. rewrite H in Q. cbn in Q.
        unfold set_c. destruct (keq k k0) eqn:E; [apply keq_spec in E; subst; rewrite keq_refl in Q; lia|].
        destruct (keq k0 k) eqn:E'; [apply keq_spec in E'; subst; rewrite keq_refl in E; discriminate|lia].
      + tolds.
      + intros U. pose proof (v_inf _ _ V U t) as X. rewrite H in X. exact X.
      + intros U k0 X. injection X as <-. right. rewrite set_same. lia.
      + intros U u k0 _ _ X. right. apply set_ge, X.
      + intros U u k0 i _ _ X. apply set_ge, X.
      + intros U A k0 X. left. apply set_ge, X.
    - (* loop *) destruct (Nat.eqb_spec (y_c y k) 0) as [Z|Z].
      + apply upd_inv with (tr := tr); cbn; rewrite ?H; cbn; ok.
        * intros k0 X. apply (v_wait _ _ V). rewrite H. exact X.
        * intros k0. pose proof (v_num _ _ V k0) as X. pose proof (num_upd (y_pc y) t (WRet k true) k0 n Ht) as Q. rewrite H in Q. cbn in Q.
          destruct (keq k0 k) eqn:E; [|lia]. apply keq_spec in E. subst. lia.
        * tolds.
        * intros U k0 X. injection X as <-. destruct (v_count _ _ V U t k) as [X|X]; [rewrite H; reflexivity|exact X|lia].
      + qt t H. intros k0 i [X|[X|X]]; try discriminate. injection X as <- <-. left. lia.
    - (* unl *) qt t H. intros k0 i [X|[X|X]]; try discriminate. injection X as <- <-. auto.
    - (* sleep *) qt t H. intros k0 i [X|[X|X]]; try discriminate. injection X as <- <-. auto.
    - (* spurious *) qt t H.
    - (* timeout *) qt t H.
    - (* woke *) qt t H.
    - (* rel *) qt t H.
    - (* again *) qt t H.
    - (* late *) destruct (Nat.eqb_spec (y_c y k) 0) as [Z|Z].
      + apply upd_inv with (tr := tr); cbn; rewrite ?H; cbn; ok.
        * intros k0 X. apply (v_wait _ _ V). rewrite H. exact X.
        * intros k0. pose proof (v_num _ _ V k0) as X. pose proof (num_upd (y_pc y) t (WRet k true) k0 n Ht) as Q. rewrite H in Q. cbn in Q.
          destruct (keq k0 k) eqn:E; [|lia]. apply keq_spec in E. subst. lia.
        * tolds.
        * intros U k0 X. injection X as <-. destruct (v_count _ _ V U t k) as [X|X]; [rewrite H; reflexivity|exact X|lia].
      + assert (NU : ~ unlimited tr). { intros U. pose proof (v_inf _ _ V U t) as X. rewrite H in X. destruct X. discriminate. }
        apply upd_inv with (tr := tr); cbn; rewrite ?H; cbn; ok; try (intros U; exfalso; apply NU, U).
        * intros k0 X. apply (v_wait _ _ V). rewrite H. exact X.
        * intros k0. pose proof (v_num _ _ V k0) as X. pose proof (num_upd (y_pc y) t (WRet k false) k0 n Ht) as Q. rewrite H in Q. cbn in Q.
          unfold set_c. destruct (keq k k0) eqn:E; [apply keq_spec in E; subst; rewrite keq_refl in Q; lia|].
          destruct (keq k0 k) eqn:E'; [apply keq_spec in E'; subst; rewrite keq_refl in E; discriminate|lia].
        * tolds.
    - (* waitret *) apply upd_inv with (tr := tr); cbn; rewrite ?H; cbn; ok.
      + right. exists (EWaitRet t b). split; [reflexivity|]. intros; cbn; auto.
      + intros k0. pose proof (v_num _ _ V k0). pose proof (num_upd (y_pc y) t (Held k) k0 n Ht) as Q. rewrite H in Q. cbn in Q. lia.
      + tolds.
    - (* send *) apply upd_inv with (tr := tr); cbn; rewrite ?H0; cbn; ok.
      + right. exists (ESend t k all). split; [reflexivity|]. intros; cbn; auto.
      + intros k0 X. injection X as <-. exists tr, all, []. split; [reflexivity|constructor].
      + intros k0. pose proof (v_num _ _ V k0). pose proof (num_upd (y_pc y) t (SLock k all) k0 n Ht) as Q. rewrite H0 in Q. cbn in Q. lia.
      + tolds.
      + intros U. apply Forall_app in U. destruct U as [_ U]. inversion U. assumption.
    - (* slock *) qt t H.
    - (* schk *) assert (HM : forall u, u <> t -> has_mutex (y_pc y u) = false) by (intros u NE; apply (v_mutex _ _ V t u); [auto|rewrite H; reflexivity]).
      destruct (Nat.eqb_spec (y_c y k) 0) as [Z|Z].
      + qt t H.
      + assert (HS : sending tr t k) by (apply (v_send _ _ V); rewrite H; reflexivity).
        apply upd_inv with (tr := tr); cbn; rewrite ?H; cbn; ok.
        * intros k0 X. apply (v_send _ _ V). rewrite H. exact X.
        * intros k0. pose proof (v_num _ _ V k0) as X. pose proof (num_upd (y_pc y) t (SNot k all) k0 n Ht) as Q. rewrite H in Q. cbn in Q. unfold set_c. destruct (keq k k0); lia.
        * intros k0 T0. assert (k0 = k) as -> by (destruct T0 as [[? [X|X]]|X]; congruence).
          pose proof (v_num _ _ V k) as X. destruct (num_pos (y_pc y) k n) as (u & Hu); [lia|].
          apply (meet tr u t k); [apply (v_wait _ _ V), ckey_wkey, Hu|exact HS].
        * intros U u k0 NE Hu X. destruct (keq k k0) eqn:E.
          -- apply keq_spec in E. subst. left. apply (meet tr u t k0); [apply (v_wait _ _ V), ckey_wkey, Hu|exact HS].
          -- right. unfold set_c. rewrite E. exact X.
        * intros A. pose proof (v_all _ _ V A t) as X. rewrite H in X. exact X.
        * intros U u k0 i NE [X|X]; specialize (HM u NE); rewrite X in HM; discriminate.
        * intros U A k0 X. right. exists k. pose proof (v_all _ _ V A t) as Y. rewrite H in Y. subst. auto.
    - (* snot *) qt t H.
      + left. eauto.
      + intros (k0 & [X|X]); [injection X as <- ->; left; exists k; auto|discriminate].
    - (* all *) pose proof (wake_inv tr y (fun u => wake (y_pc y u)) V (fun u => or_intror eq_refl)) as V'.
      apply (quiet_inv tr (mkSys (y_c y) (fun u => wake (y_pc y u))) t (SRet k true) V'); cbn [y_pc y_c]; rewrite ?H; cbn; ok; try discriminate.
      + tolds. left. eauto.
      + intros _. right. intros _ u k0 i. destruct (y_pc y u); discriminate.
    - (* one *) assert (VT : v <> t) by (intros ->; congruence).
      assert (V' : inv tr (mkSys (y_c y) (upd (y_pc y) v (wake (y_pc y v))))).
      { apply wake_inv; [exact V|]. intros u. destruct (Nat.eq_dec u v) as [->|NE]; [rewrite upd_same; auto|rewrite upd_other by exact NE; auto]. }
      apply (quiet_inv tr (mkSys (y_c y) (upd (y_pc y) v (wake (y_pc y v)))) t (SRet k true) V'); cbn [y_pc y_c]; rewrite ?(upd_other _ v _ t) by auto; rewrite ?H; cbn; ok; try discriminate.
      + tolds. left. eauto.
    - (* one0 *) qt t H. left. eauto.
    - (* sendret *) apply upd_inv with (tr := tr); cbn; rewrite ?H; cbn; ok.
      + right. exists (ESendRet t b). split; [reflexivity|]. intros; cbn; auto.
      + intros k0. pose proof (v_num _ _ V k0). pose proof (num_upd (y_pc y) t Idle k0 n Ht) as Q. rewrite H in Q. cbn in Q. lia.
      + tolds.
  Qed.

  Lemma run_inv tr y : run (init K) tr y -> inv tr y.
  Proof.
    intros R. remember (init K) as y0 eqn:E0. induction R as [y|y y1 tr y2 R IH S|y y1 tr e y2 R IH NT S]; subst.
    - apply inv_init.
    - apply (step_inv tr y1 ETau y2); auto.
    - pose proof (step_inv tr y1 e y2 (IH eq_refl) S) as X. destruct e; try exact X. congruence.
  Qed.
  Lemma run_split y tr y' : run y tr y' -> forall a e b, tr = a ++ e :: b -> exists y1 y2, run y a y1 /\ step y1 e y2 /\ e <> ETau.
  Proof.
    intros R. induction R as [y|y y1 tr y2 R IH S|y y1 tr e0 y2 R IH NT S]; intros a e b E.
    - destruct a; discriminate.
    - eapply IH; eassumption.
    - destruct b as [|x b _] using rev_ind.
      + apply app_inj_tail in E. destruct E as [<- <-]. eauto.
      + rewrite app_comm_cons, app_assoc in E. apply app_inj_tail in E. destruct E as [-> _]. eapply IH; reflexivity.
  Qed.
  Lemma run_app y tr y1 tr' y2 : run y1 tr' y2 -> run y tr y1 -> run y (tr ++ tr') y2.
  Proof.
    intros R. induction R as [z|z z1 tr' z2 R IH S|z z1 tr' e z2 R IH NT S]; intros R0.
    - rewrite app_nil_r. exact R0.
    - eapply run_tau; eauto.
    - rewrite app_assoc. eapply run_ev; eauto.
  Qed.

  (** ** C54.  Every Wait with no time limit returns true, and while it ran a Send for its key was running. *)
  Theorem C54_wait tr y p1 p2 p3 t k inf b : run (init K) tr y -> unlimited tr ->
    tr = p1 ++ EWait t k inf :: p2 ++ EWaitRet t b :: p3 -> Forall (no_wait t) p2 ->
    b = true /\ exists q1 q2 u, p2 = q1 ++ q2 /\ sending (p1 ++ EWait t k inf :: q1) u k.
  Proof.
    intros R U E F. rewrite app_comm_cons, app_assoc in E.
    destruct (run_split _ _ _ R _ _ _ E) as (y1 & y2 & R1 & S & _). apply run_inv in R1.
    assert (U1 : unlimited (p1 ++ EWait t k inf :: p2)) by (subst tr; apply Forall_app in U; apply U).
    inversion S as [| | | | | | | | | | | | | | | t0 k0 b0 H1| | | | | | | |]; subst.
    assert (b = true) as -> by (pose proof (v_inf _ _ R1 U1 t) as X; rewrite H1 in X; exact X). split; [reflexivity|].
    pose proof (v_true _ _ R1 U1 t _ H1) as (r1 & i & r2 & r3 & u & E1 & F1 & SE).
    destruct (last_wait t _ _ _ _ _ _ _ _ F F1 E1) as (<- & <- & <- & ->). eauto.
  Qed.
  (** ** C54.  A Send that returns true had a Wait for its key running with it. *)
  Theorem C54_send tr y p1 p2 p3 t k all : run (init K) tr y ->
    tr = p1 ++ ESend t k all :: p2 ++ ESendRet t true :: p3 -> Forall (no_send t) p2 ->
    exists q1 q2 u, p2 = q1 ++ q2 /\ waiting (p1 ++ ESend t k all :: q1) u k.
  Proof.
    intros R E F. rewrite app_comm_cons, app_assoc in E.
    destruct (run_split _ _ _ R _ _ _ E) as (y1 & y2 & R1 & S & _). apply run_inv in R1. inversion S as [| | | | | | | | | | | | | | | | | | | | | | |t0 k0 b0 H1]; subst.
    pose proof (v_told _ _ R1 t _ (or_intror H1)) as (r1 & i & r2 & r3 & u & E1 & F1 & SE).
    destruct (last_send t _ _ _ _ _ _ _ _ F F1 E1) as (<- & <- & <- & ->). eauto.
  Qed.
  (** ** C54.  With Wait without limits and Send to all: a thread asleep is counted, so that the next Send for its key finds it, or a Send that will wake it is running. *)
  Theorem C54_asleep tr y t k inf : run (init K) tr y -> unlimited tr -> to_all tr -> y_pc y t = Sleep k inf ->
    1 <= y_c y k \/ exists u k', (y_pc y u = SNot k' true \/ y_pc y u = SGo k' true) /\ sending tr u k'.
  Proof.
    intros R U A H. apply run_inv in R. destruct (v_sleep _ _ R U A t k inf H) as [X|(u & k' & X)]; [auto|]. right. exists u, k'. split; [exact X|].
    apply (v_send _ _ R). destruct X as [-> | ->]; reflexivity.
  Qed.
  (** ** C54.  The locks: at most one thread has mutex_; when a thread notifies, no other does and none has notify_mutex_ shared. *)
  Theorem C54_locks tr y t u : run (init K) tr y -> t <> u ->
    ~ (has_mutex (y_pc y t) = true /\ has_mutex (y_pc y u) = true) /\
    ~ (has_excl (y_pc y t) = true /\ (has_excl (y_pc y u) = true \/ has_shared (y_pc y u) = true)).
  Proof.
    intros R NE. apply run_inv in R. split.
    - intros [X Y]. rewrite (v_mutex _ _ R t u NE X) in Y. discriminate.
    - intros [X Y]. destruct (v_excl _ _ R t u NE X) as [Z1 Z2]. rewrite Z1, Z2 in Y. destruct Y; discriminate.
  Qed.
  Lemma some_or_none (h : pc K -> bool) tr y t : inv tr y -> h Idle = false -> (exists u, u <> t /\ h (y_pc y u) = true) \/ none h y t.
  Proof.
    intros V HI.
    assert (X : forall j, (exists u, u <> t /\ h (y_pc y u) = true) \/ forall u, u < j -> u <> t -> h (y_pc y u) = false).
    { induction j as [|j [IH|IH]]; [right; intros; lia|auto|]. destruct (Nat.eq_dec j t) as [->|NE]; [right; intros u Hu X; apply IH; [lia|exact X]|].
      destruct (h (y_pc y j)) eqn:E; [left; eauto|]. right. intros u Hu X. destruct (Nat.eq_dec u j) as [->|Y]; [exact E|]. apply IH; [lia|exact X]. }
    destruct (X n) as [Y|Y]; [auto|]. right. intros u NE. destruct (Nat.lt_ge_cases u n) as [Z|Z]; [auto|]. rewrite (v_fin _ _ V u Z). exact HI.
  Qed.
  Definition goes (y : sys K) : Prop := (exists y', step y ETau y') \/ exists t b y', step y (EWaitRet t b) y' \/ step y (ESendRet t b) y'.
  Lemma excl_goes tr y t : inv tr y -> has_excl (y_pc y t) = true -> goes y.
  Proof.
    intros V H. destruct (y_pc y t) eqn:E; try discriminate. left. destruct all.
    - eexists. eapply st_all; exact E.
    - destruct (some_or_none (fun p => match p with Sleep _ _ => true | _ => false end) tr y t V eq_refl) as [(v & _ & Y)|Y].
      + destruct (y_pc y v) eqn:Ev; try discriminate. eexists. eapply st_one; eassumption.
      + eexists. eapply st_one0; [exact E|]. intros v. destruct (Nat.eq_dec v t) as [->|NE]; [rewrite E; reflexivity|]. specialize (Y v NE). destruct (y_pc y v); try reflexivity. discriminate.
  Qed.
  Lemma mutex_goes tr y t : inv tr y -> has_mutex (y_pc y t) = true -> goes y.
  Proof.
    intros V H. destruct (y_pc y t) eqn:E; try discriminate.
    - left. eexists. eapply st_inc; exact E.
    - left. eexists. eapply st_loop; exact E.
    - left. eexists. eapply st_unl; exact E.
    - left. eexists. eapply st_sleep; exact E.
    - destruct (some_or_none has_excl tr y t V eq_refl) as [(u & _ & X)|X]; [eapply excl_goes; eassumption|]. left. eexists. eapply st_rel; eassumption.
    - left. destruct tmo; eexists; [eapply st_late; exact E|eapply st_again; exact E].
    - left. eexists. eapply st_schk; exact E.
  Qed.
  (** ** C54.  No deadlock: when a thread is in a call and not asleep, some thread can go on, or a Send waits for the holder of a Waiter that is not waiting. *)
  Theorem C54_no_deadlock tr y t : run (init K) tr y -> y_pc y t <> Idle -> (forall k, y_pc y t <> Held k) -> (forall k inf, y_pc y t <> Sleep k inf) ->
    goes y \/ exists u k all v k', y_pc y u = SNot k all /\ y_pc y v = Held k'.
  Proof.
    intros R N1 N2 N3. apply run_inv in R.
    destruct (has_mutex (y_pc y t)) eqn:HM; [left; eapply mutex_goes; eassumption|].
    destruct (some_or_none has_mutex tr y t R eq_refl) as [(u & _ & X)|NM]; [left; eapply mutex_goes; eassumption|].
    destruct (has_excl (y_pc y t)) eqn:HX; [left; eapply excl_goes; eassumption|].
    destruct (some_or_none has_excl tr y t R eq_refl) as [(u & _ & X)|NX]; [left; eapply excl_goes; eassumption|].
    destruct (y_pc y t) eqn:E; try discriminate; try congruence.
    - left. left. eexists. eapply st_made; eassumption.
    - left. left. eexists. eapply st_mut; eassumption.
    - left. left. eexists. eapply st_woke; eassumption.
    - left. right. exists t. do 2 eexists. left. eapply st_waitret; exact E.
    - left. left. eexists. eapply st_slock; eassumption.
    - destruct (some_or_none has_shared tr y t R eq_refl) as [(u & NE & X)|NS]; [|left; left; eexists; eapply st_snot; eassumption].
      assert (NMu : has_mutex (y_pc y u) = false) by (apply NM; exact NE).
      destruct (y_pc y u) eqn:Eu; try discriminate.
      + right. exists t, k, all, u, k0. auto.
      + left. left. eexists. eapply st_mut; [exact Eu|]. intros v NV. destruct (Nat.eq_dec v t) as [->|Y]; [rewrite E; reflexivity|apply NM; exact Y].
      + left. right. exists u. do 2 eexists. left. eapply st_waitret; exact Eu.
    - left. right. exists t. do 2 eexists. right. eapply st_sendret; exact E.
  Qed.

  (** ** C54.  With Wait without limits and Send to all, when the threads are idle or asleep: a Send for the key of a thread asleep can return true, and then that Wait return true. *)
  Theorem C54_wakes tr y t u k inf : run (init K) tr y -> unlimited tr -> to_all tr ->
    (forall v, y_pc y v = Idle \/ exists k' inf', y_pc y v = Sleep k' inf') -> y_pc y t = Sleep k inf -> u < n -> y_pc y u = Idle ->
    exists y', run y [ESend u k true; ESendRet u true; EWaitRet t true] y'.
  Proof.
    intros R U A Q Ht Hu Hi. pose proof R as R0. apply run_inv in R.
    assert (C : 1 <= y_c y k). { destruct (v_sleep _ _ R U A t k inf Ht) as [X|(v & k' & X)]; [exact X|]. destruct (Q v) as [Y|(k2 & i2 & Y)]; rewrite Y in X; destruct X; discriminate. }
    assert (NE : u <> t) by (intros ->; congruence).
    assert (QM : forall v, has_mutex (y_pc y v) = false /\ has_shared (y_pc y v) = false /\ has_excl (y_pc y v) = false /\ has_mutex (wake (y_pc y v)) = false /\ has_excl (wake (y_pc y v)) = false).
    { intros v. destruct (Q v) as [->|(k2 & i2 & ->)]; cbn; auto. }
    set (f1 := upd (y_pc y) u (SLock k true)). set (f2 := upd f1 u (SChk k true)). set (f3 := upd f2 u (SNot k true)). set (f4 := upd f3 u (SGo k true)).
    set (c1 := set_c keq (y_c y) k 0). set (f5 := upd (fun v => wake (f4 v)) u (SRet k true)). set (f6 := upd f5 u Idle).
    assert (S1 : step y (ESend u k true) (mkSys (y_c y) f1)) by (apply st_send; assumption).
    assert (S2 : step (mkSys (y_c y) f1) ETau (mkSys (y_c y) f2)).
    { apply (st_slock K keq n (mkSys (y_c y) f1) u k true); [apply upd_same|]. intros v NV. cbn. unfold f1. rewrite upd_other by exact NV. apply QM. }
    assert (S3 : step (mkSys (y_c y) f2) ETau (mkSys c1 f3)).
    { pose proof (st_schk K keq n (mkSys (y_c y) f2) u k true (upd_same _ _ _)) as X. cbn [y_c y_pc] in X. destruct (Nat.eqb_spec (y_c y k) 0); [lia|]. exact X. }
    assert (S4 : step (mkSys c1 f3) ETau (mkSys c1 f4)).
    { apply (st_snot K keq n (mkSys c1 f3) u k true); [apply upd_same| |]; intros v NV; cbn; unfold f3, f2, f1; rewrite !upd_other by exact NV; apply QM. }
    assert (S5 : step (mkSys c1 f4) ETau (mkSys c1 f5)) by (apply (st_all K keq n (mkSys c1 f4) u k); apply upd_same).
    assert (S6 : step (mkSys c1 f5) (ESendRet u true) (mkSys c1 f6)) by (apply (st_sendret K keq n (mkSys c1 f5) u k true); apply upd_same).
    assert (F6 : forall v, v <> u -> f6 v = wake (y_pc y v)) by (intros v NV; unfold f6, f5, f4, f3, f2, f1; rewrite !upd_other by exact NV; reflexivity).
    assert (F6u : f6 u = Idle) by apply upd_same.
    set (f7 := upd f6 t (WRel k inf false)). set (f8 := upd f7 t (WChk k inf false)). set (f9 := upd f8 t (WLoop k inf)). set (f10 := upd f9 t (WRet k true)). set (f11 := upd f10 t (Held k)).
    assert (S7 : step (mkSys c1 f6) ETau (mkSys c1 f7)).
    { apply (st_woke K keq n (mkSys c1 f6) t k inf false); [cbn; rewrite F6 by auto; rewrite Ht; reflexivity|]. intros v NV. cbn. destruct (Nat.eq_dec v u) as [->|X]; [rewrite F6u; reflexivity|rewrite F6 by exact X; apply QM]. }
    assert (S8 : step (mkSys c1 f7) ETau (mkSys c1 f8)).
    { apply (st_rel K keq n (mkSys c1 f7) t k inf false); [apply upd_same|]. intros v NV. cbn. unfold f7. rewrite upd_other by exact NV. destruct (Nat.eq_dec v u) as [->|X]; [rewrite F6u; reflexivity|rewrite F6 by exact X; apply QM]. }
    assert (S9 : step (mkSys c1 f8) ETau (mkSys c1 f9)) by (apply (st_again K keq n (mkSys c1 f8) t k inf); apply upd_same).
    assert (S10 : step (mkSys c1 f9) ETau (mkSys c1 f10)).
    { pose proof (st_loop K keq n (mkSys c1 f9) t k inf (upd_same _ _ _)) as X. cbn [y_c y_pc] in X. assert (Z : c1 k = 0) by apply set_same. rewrite Z in X. exact X. }
    assert (S11 : step (mkSys c1 f10) (EWaitRet t true) (mkSys c1 f11)) by (apply (st_waitret K keq n (mkSys c1 f10) t k true); apply upd_same).
    exists (mkSys c1 f11). apply (run_ev K keq n y (mkSys c1 f10) [ESend u k true; ESendRet u true] (EWaitRet t true)); [|discriminate|exact S11].
    eapply run_tau; [|exact S10]. eapply run_tau; [|exact S9]. eapply run_tau; [|exact S8]. eapply run_tau; [|exact S7].
    apply (run_ev K keq n y (mkSys c1 f5) [ESend u k true] (ESendRet u true)); [|discriminate|exact S6].
    eapply run_tau; [|exact S5]. eapply run_tau; [|exact S4]. eapply run_tau; [|exact S3]. eapply run_tau; [|exact S2].
    apply (run_ev K keq n y y [] (ESend u k true)); [constructor|discriminate|exact S1].
  Qed.
End Inv.

(** * Concrete executions of a SignalBroker *)
Section Play.
  Variable n : nat.
  Definition one (a b : unit) : bool := true.
  Lemma one_spec a b : one a b = true <-> a = b. Proof. destruct a, b. split; reflexivity. Qed.
  (** [Go]: the next internal step or return; [One v]: notify_one wakes [v]. *)
  Inductive move := Make | Drop | Wait (inf : bool) | Send (all : bool) | Go | Late | One (v : nat).
  Definition free (h : pc unit -> bool) (y : sys unit) (t : nat) : bool := forallb (fun u => (u =? t) || negb (h (y_pc y u))) (seq 0 n).
  Definition play1 (y : sys unit) (t : nat) (m : move) : option (ev unit * sys unit) :=
    let to p := mkSys (y_c y) (upd (y_pc y) t p) in
    match y_pc y t, m with
    | Idle, Make => if t <? n then Some (EMake t tt, to (WLock tt)) else None
    | Idle, Send all => if t <? n then Some (ESend t tt all, to (SLock tt all)) else None
    | Held k, Drop => Some (EDrop t, to Idle)
    | Held k, Wait inf => Some (EWait t k inf, to (WMut k inf))
    | Sleep k false, Late => Some (ETau, to (WWoke k false true))
    | SGo k false, One v => match y_pc y v with Sleep kv inf => Some (ETau, mkSys (y_c y) (upd (upd (y_pc y) v (wake (y_pc y v))) t (SRet k true))) | _ => None end
    | WLock k, Go => if free has_excl y t then Some (ETau, to (Held k)) else None
    | WMut k inf, Go => if free has_mutex y t then Some (ETau, to (WInc k inf)) else None
    | WInc k inf, Go => Some (ETau, mkSys (set_c one (y_c y) k (S (y_c y k))) (upd (y_pc y) t (WLoop k inf)))
    | WLoop k inf, Go => Some (ETau, to (if y_c y k =? 0 then WRet k true else WUnl k inf))
    | WUnl k inf, Go => Some (ETau, to (WEnter k inf))
    | WEnter k inf, Go => Some (ETau, to (Sleep k inf))
    | WWoke k inf tmo, Go => if free has_mutex y t then Some (ETau, to (WRel k inf tmo)) else None
    | WRel k inf tmo, Go => if free has_excl y t then Some (ETau, to (WChk k inf tmo)) else None
    | WChk k inf false, Go => Some (ETau, to (WLoop k inf))
    | WChk k inf true, Go => Some (ETau, if y_c y k =? 0 then to (WRet k true) else mkSys (set_c one (y_c y) k (y_c y k - 1)) (upd (y_pc y) t (WRet k false)))
    | WRet k b, Go => Some (EWaitRet t b, to (Held k))
    | SLock k all, Go => if free has_mutex y t then Some (ETau, to (SChk k all)) else None
    | SChk k all, Go => Some (ETau, if y_c y k =? 0 then to (SRet k false) else mkSys (set_c one (y_c y) k 0) (upd (y_pc y) t (SNot k all)))
    | SNot k all, Go => if free has_shared y t && free has_excl y t then Some (ETau, to (SGo k all)) else None
    | SGo k true, Go => Some (ETau, mkSys (y_c y) (upd (fun u => wake (y_pc y u)) t (SRet k true)))
    | SRet k b, Go => Some (ESendRet t b, to Idle)
    | _, _ => None
    end.
  Fixpoint play (tr : list (ev unit)) (y : sys unit) (l : list (nat * move)) : option (list (ev unit) * sys unit) :=
    match l with [] => Some (tr, y) | (t, m) :: l => match play1 y t m with Some (e, y') => play (app_ev tr e) y' l | None => None end end.

  Lemma free_ok h tr y t : inv one n tr y -> h Idle = false -> free h y t = true -> none h y t.
  Proof.
    intros V HI F u NE. unfold free in F. rewrite forallb_forall in F. destruct (Nat.lt_ge_cases u n) as [X|X]; [|rewrite (v_fin _ _ _ _ V u X); exact HI].
    specialize (F u ltac:(apply in_seq; lia)). apply Nat.eqb_neq in NE. rewrite NE in F. apply negb_true_iff, F.
  Qed.
  Lemma play1_ok tr y t m e y' : inv one n tr y -> play1 y t m = Some (e, y') -> step one n y e y'.
  Proof.
    intros V H. unfold play1 in H.
    destruct (y_pc y t) as [|k|k|k inf|k inf|k inf|k inf|k inf|k inf|k inf tmo|k inf tmo|k inf tmo|k b|k all|k all|k all|k all|k b] eqn:E; destruct m as [| |inf'|all'| | |v]; try discriminate;
      try (destruct (t <? n) eqn:T; [|discriminate]; apply Nat.ltb_lt in T);
      try (destruct inf; try discriminate); try (destruct tmo; try discriminate); try (destruct all; try discriminate);
      try (destruct (free has_shared y t) eqn:F2; [|discriminate]; cbn [andb] in H);
      try (destruct (free has_excl y t) eqn:F; [|discriminate]);
      try (destruct (free has_mutex y t) eqn:F; [|discriminate]);
      try (injection H as <- <-; first [destruct k|destruct k|idtac]; econstructor; try eassumption; eapply free_ok; eauto; reflexivity).
    destruct (y_pc y v) eqn:Ev; try discriminate. injection H as <- <-. pose proof (st_one unit one n y t k v _ _ E Ev) as X. rewrite Ev in X. exact X.
  Qed.
  Lemma play_ok l : forall tr y tr' y', run one n (init unit) tr y -> play tr y l = Some (tr', y') -> run one n (init unit) tr' y'.
  Proof.
    induction l as [|[t m] l IH]; intros tr y tr' y' R H; cbn [play] in H; [injection H as <- <-; exact R|].
    destruct (play1 y t m) as [[e y1]|] eqn:E; [|discriminate]. apply (play1_ok tr) in E; [|apply (run_inv one one_spec), R].
    apply (IH _ _ _ _) in H; [exact H|]. destruct e; cbn [app_ev]; try (eapply run_ev; [exact R|discriminate|exact E]). eapply run_tau; eassumption.
  Qed.
End Play.


Definition broker (n : nat) (l : list (nat * move)) : option (list (ev unit) * sys unit) := play n [] (init unit) l.
Lemma broker_ok n l tr y : broker n l = Some (tr, y) -> run one n (init unit) tr y.
Proof. apply play_ok. constructor. Qed.
Definition times (t k : nat) : list (nat * move) := repeat (t, Go) k.
Definition trace_of n l := match broker n l with Some (tr, _) => tr | None => [] end.
Definition state_of n l := match broker n l with Some (_, y) => y | None => init unit end.
Lemma reached n l : match broker n l with Some _ => True | None => False end -> run one n (init unit) (trace_of n l) (state_of n l).
Proof. intros H. unfold trace_of, state_of. destruct (broker n l) as [[tr y]|] eqn:E; [|destruct H]. apply broker_ok with (l := l). exact E. Qed.

(** A thread has made a Waiter, another one sends, then the first waits. *)
Definition lost : list (nat * move) := [(0, Make); (0, Go); (1, Send true)] ++ times 1 3 ++ [(0, Wait true)] ++ times 0 5.
Theorem C54_pattern_refuted : exists tr y, run one 2 (init unit) tr y /\ unlimited tr /\ to_all tr /\
  tr = [EMake 0 tt; ESend 1 tt true; ESendRet 1 false; EWait 0 tt true] /\ y_pc y 0 = Sleep tt true /\ y_pc y 1 = Idle.
Proof.
  exists (trace_of 2 lost), (state_of 2 lost). split; [apply reached; vm_compute; exact I|]. vm_compute. repeat split; repeat constructor.
Qed.
(** A thread makes a Waiter and waits until it is asleep. *)
Definition sleeps (t : nat) (inf : bool) : list (nat * move) := [(t, Make); (t, Go); (t, Wait inf)] ++ times t 5.
(** A Send that notifies one ends the counts of all: another thread asleep is not found by the next Send. *)
Definition single : list (nat * move) := sleeps 0 true ++ sleeps 1 true ++ [(2, Send false)] ++ times 2 3 ++ [(2, One 0); (2, Go)] ++ times 0 5 ++ [(2, Send false)] ++ times 2 3.
Theorem C54_one_refuted : exists tr y, run one 3 (init unit) tr y /\ unlimited tr /\
  tr = [EMake 0 tt; EWait 0 tt true; EMake 1 tt; EWait 1 tt true; ESend 2 tt false; ESendRet 2 true; EWaitRet 0 true; ESend 2 tt false; ESendRet 2 false] /\
  y_pc y 1 = Sleep tt true /\ y_pc y 2 = Idle.
Proof. exists (trace_of 3 single), (state_of 3 single). split; [apply reached; vm_compute; exact I|]. vm_compute. repeat split; repeat constructor. Qed.
(** A thread woken by a Send to all finds that another one has begun to wait since, and sleeps on. *)
Definition again (a b : bool) : list (nat * move) := sleeps 0 a ++ [(2, Send true)] ++ times 2 5 ++ sleeps 1 b ++ times 0 6.
Theorem C54_all_refuted : exists tr y, run one 3 (init unit) tr y /\ unlimited tr /\ to_all tr /\
  tr = [EMake 0 tt; EWait 0 tt true; ESend 2 tt true; ESendRet 2 true; EMake 1 tt; EWait 1 tt true] /\
  y_pc y 0 = Sleep tt true /\ y_pc y 1 = Sleep tt true /\ y_pc y 2 = Idle.
Proof. exists (trace_of 3 (again true true)), (state_of 3 (again true true)). split; [apply reached; vm_compute; exact I|]. vm_compute. repeat split; repeat constructor. Qed.
(** With time limits: such a thread takes away the count of the other when its time is up.  The other one then returns true though no Send ran during its Wait. *)
Theorem C54_timeout_true_refuted : exists tr y, run one 3 (init unit) tr y /\ to_all tr /\
  tr = [EMake 0 tt; EWait 0 tt false; ESend 2 tt true; ESendRet 2 true; EMake 1 tt; EWait 1 tt false; EWaitRet 0 false; EWaitRet 1 true].
Proof.
  pose (l := again false false ++ [(0, Late)] ++ times 0 4 ++ [(1, Late)] ++ times 1 4).
  exists (trace_of 3 l), (state_of 3 l). split; [apply reached; vm_compute; exact I|]. vm_compute. repeat split; repeat constructor.
Qed.
(** ...or stays asleep while a Send returns false. *)
Theorem C54_timeout_lost_refuted : exists tr y, run one 3 (init unit) tr y /\ to_all tr /\
  tr = [EMake 0 tt; EWait 0 tt false; ESend 2 tt true; ESendRet 2 true; EMake 1 tt; EWait 1 tt true; EWaitRet 0 false; ESend 2 tt true; ESendRet 2 false] /\
  y_pc y 1 = Sleep tt true /\ y_pc y 2 = Idle.
Proof.
  pose (l := again false true ++ [(0, Late)] ++ times 0 4 ++ [(2, Send true)] ++ times 2 3).
  exists (trace_of 3 l), (state_of 3 l). split; [apply reached; vm_compute; exact I|]. vm_compute. repeat split; repeat constructor.
Qed.

(** The hypotheses of C54_wait and C54_send: two threads wait, the third sends, both return. *)
Definition good : list (nat * move) := sleeps 0 true ++ sleeps 1 true ++ [(2, Send true)] ++ times 2 5 ++ times 1 5 ++ times 0 5.
Example good_run : run one 3 (init unit) (trace_of 3 good) (state_of 3 good) /\ unlimited (trace_of 3 good) /\ to_all (trace_of 3 good) /\
  trace_of 3 good = [EMake 0 tt; EWait 0 tt true; EMake 1 tt; EWait 1 tt true; ESend 2 tt true; ESendRet 2 true; EWaitRet 1 true; EWaitRet 0 true].
Proof. split; [apply reached; vm_compute; exact I|]. vm_compute. repeat split; repeat constructor. Qed.
Example good_wait : exists q1 q2 u, [EMake 1 tt; EWait 1 tt true; ESend 2 tt true; ESendRet 2 true; EWaitRet 1 true] = q1 ++ q2 /\ sending ([EMake 0 tt] ++ EWait 0 tt true :: q1) u tt.
Proof.
  destruct good_run as (R & U & _ & E). apply (C54_wait one one_spec 3 _ _ [EMake 0 tt] [EMake 1 tt; EWait 1 tt true; ESend 2 tt true; ESendRet 2 true; EWaitRet 1 true] [] 0 tt true true R U E). repeat constructor; cbn; congruence.
Qed.
Example good_send : exists q1 q2 u, @nil (ev unit) = q1 ++ q2 /\ waiting ([EMake 0 tt; EWait 0 tt true; EMake 1 tt; EWait 1 tt true] ++ ESend 2 tt true :: q1) u tt.
Proof. destruct good_run as (R & _ & _ & E). apply (C54_send one one_spec 3 _ _ [EMake 0 tt; EWait 0 tt true; EMake 1 tt; EWait 1 tt true] [] [EWaitRet 1 true; EWaitRet 0 true] 2 tt true R E). constructor. Qed.
(** The hypotheses of C54_asleep, C54_wakes. *)
Example good_wakes : exists y', run one 3 (state_of 3 (sleeps 0 true ++ sleeps 1 true)) [ESend 2 tt true; ESendRet 2 true; EWaitRet 1 true] y'.
Proof.
  apply (C54_wakes one one_spec 3 (trace_of 3 (sleeps 0 true ++ sleeps 1 true))) with (inf := true); try (vm_compute; repeat constructor; fail).
  - apply reached. vm_compute. exact I.
  - intros [|[|v]]; [right; exists tt, true; vm_compute; reflexivity|right; exists tt, true; vm_compute; reflexivity|left; vm_compute; reflexivity].
Qed.
Example good_progress : goes one 3 (state_of 3 [(0, Make)]).
Proof.
  destruct (C54_no_deadlock one one_spec 3 (trace_of 3 [(0, Make)]) (state_of 3 [(0, Make)]) 0) as [X|(u & k & all & v & k' & X & _)]; try (vm_compute; congruence).
  - apply reached. vm_compute. exact I.
  - exact X.
  - destruct u as [|u]; vm_compute in X; discriminate.
Qed.
Print Assumptions C54_wait. Print Assumptions C54_send. Print Assumptions C54_asleep. Print Assumptions C54_wakes. Print Assumptions C54_locks. Print Assumptions C54_no_deadlock.
Print Assumptions C54_pattern_refuted. Print Assumptions C54_one_refuted. Print Assumptions C54_all_refuted. Print Assumptions C54_timeout_true_refuted.
Print Assumptions C54_timeout_lost_refuted.
