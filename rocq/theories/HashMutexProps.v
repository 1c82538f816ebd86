(** C32: bucket locks stay consistent under rehashing and cannot deadlock. *)
From Coq Require Import NArith List Lia Arith Bool Sorting.Sorted.
From Verif Require Import Bytes HashMutexModel.
Import ListNotations.
Local Open Scope N_scope.

(** * Specification *)

(** Thread [t] has returned from a locking method and owns bucket [b] in mode [md]. *)
Definition owns (s : sys) (t : nat) (md : mode) (b : N) : Prop :=
  match spc s t with
  | OwnOne m k b' => m = md /\ b' = b
  | OwnIdx m b' => m = md /\ b' = b
  | OwnAll m => m = md
  | OwnMulti m ks bs => m = md /\ In b bs
  | _ => False
  end.

(** Thread [t] has returned from a locking method and has not called the unlocking method yet. *)
Definition returned (s : sys) (t : nat) : Prop :=
  match spc s t with OwnOne _ _ _ | OwnIdx _ _ | OwnAll _ | OwnMulti _ _ _ => True | _ => False end.

(** Thread [t] is inside a locking or unlocking method. *)
Definition in_call (s : sys) (t : nat) : Prop := spc s t <> Idle /\ ~ returned s t.

(** * Sorted sets of slots *)

Definition asc := StronglySorted N.lt.

Lemma set_ins_in : forall x l y, In y (set_ins x l) <-> y = x \/ In y l.
Proof.
  induction l as [|z r IH]; intros y; cbn; [intuition congruence|].
  destruct (x <? z); [cbn; intuition congruence|]. destruct (N.eqb_spec x z) as [->|]; [cbn; intuition congruence|].
  cbn. rewrite IH. intuition congruence.
Qed.

Lemma set_ins_asc : forall x l, asc l -> asc (set_ins x l).
Proof.
  induction l as [|z r IH]; intros H; cbn; [repeat constructor|].
  inversion H as [|a b Hs Hf]; subst.
  destruct (N.ltb_spec x z).
  - constructor; [exact H|]. constructor; [exact H0|]. eapply Forall_impl; [|exact Hf]. cbn. lia.
  - destruct (N.eqb_spec x z); [exact H|]. constructor; [apply IH; exact Hs|].
    apply Forall_forall. intros y Hy. apply set_ins_in in Hy. destruct Hy as [->|Hy]; [lia|].
    rewrite Forall_forall in Hf. apply Hf. exact Hy.
Qed.

Lemma slotset_asc : forall l, asc (slotset l).
Proof. induction l; cbn; [constructor|apply set_ins_asc; assumption]. Qed.

Lemma slotset_in : forall l y, In y (slotset l) <-> In y l.
Proof. induction l as [|x r IH]; intros y; cbn; [tauto|]. rewrite set_ins_in, IH. intuition congruence. Qed.

Lemma asc_app : forall a b, asc (a ++ b) -> forall x y, In x a -> In y b -> x < y.
Proof.
  induction a as [|z r IH]; intros b H x y Hx Hy; [destruct Hx|]. cbn in H. inversion H as [|u v Hs Hf]; subst.
  destruct Hx as [->|Hx]; [|eapply IH; eassumption]. rewrite Forall_forall in Hf. apply Hf. apply in_or_app. right. exact Hy.
Qed.

Lemma asc_nodup : forall l, asc l -> NoDup l.
Proof.
  induction l as [|x r IH]; intros H; [constructor|]. inversion H as [|u v Hs Hf]; subst. constructor; [|apply IH; exact Hs].
  intros Hin. rewrite Forall_forall in Hf. specialize (Hf _ Hin). lia.
Qed.

(** * Counting threads *)

Fixpoint count (P : pc -> bool) (f : nat -> pc) (n : nat) : nat :=
  match n with O => O | S k => (count P f k + if P (f k) then 1 else 0)%nat end.

Lemma count_ext : forall P f g n, (forall i, (i < n)%nat -> P (f i) = P (g i)) -> count P f n = count P g n.
Proof.
  induction n; intros; [reflexivity|]. cbn. rewrite IHn by (intros; apply H; lia). rewrite (H n) by lia. reflexivity.
Qed.

Lemma upd_same : forall f t p, upd f t p t = p.
Proof. intros. unfold upd. rewrite Nat.eqb_refl. reflexivity. Qed.
Lemma upd_other : forall f t p i, i <> t -> upd f t p i = f i.
Proof. intros. unfold upd. apply Nat.eqb_neq in H. rewrite H. reflexivity. Qed.

Definition b2n (b : bool) : nat := if b then 1 else 0.

Lemma count_upd : forall P f t p n, (t < n)%nat ->
  (count P (upd f t p) n + b2n (P (f t)) = count P f n + b2n (P p))%nat.
Proof.
  induction n; intros Ht; [lia|]. cbn [count].
  destruct (Nat.eq_dec t n) as [->|Hn].
  - rewrite upd_same. rewrite (count_ext P (upd f n p) f n) by (intros; rewrite upd_other by lia; reflexivity). unfold b2n. lia.
  - rewrite (upd_other f t p n) by lia. specialize (IHn ltac:(lia)). lia.
Qed.

Lemma count_pos : forall P f n t, (t < n)%nat -> P (f t) = true -> (1 <= count P f n)%nat.
Proof.
  induction n; intros t Ht HP; [lia|]. cbn. destruct (Nat.eq_dec t n) as [->|]; [rewrite HP; lia|].
  specialize (IHn t ltac:(lia) HP). lia.
Qed.

Lemma count_some : forall P f n, (1 <= count P f n)%nat -> exists t, (t < n)%nat /\ P (f t) = true.
Proof.
  induction n; intros H; cbn in H; [lia|]. destruct (P (f n)) eqn:E; [exists n; split; [lia|exact E]|].
  destruct IHn as (t & Ht & HP); [lia|]. exists t. split; [lia|exact HP].
Qed.

Lemma count_two : forall P f n t u, (t < n)%nat -> (u < n)%nat -> t <> u -> P (f t) = true -> P (f u) = true -> (2 <= count P f n)%nat.
Proof.
  induction n; intros t u Ht Hu Htu HPt HPu; [lia|]. cbn.
  destruct (Nat.eq_dec t n) as [->|].
  - rewrite HPt. pose proof (count_pos P f n u ltac:(lia) HPu). lia.
  - destruct (Nat.eq_dec u n) as [->|].
    + rewrite HPu. pose proof (count_pos P f n t ltac:(lia) HPt). lia.
    + specialize (IHn t u ltac:(lia) ltac:(lia) Htu HPt HPu). lia.
Qed.

Lemma count_zero : forall P f n, (forall i, (i < n)%nat -> P (f i) = false) -> count P f n = 0%nat.
Proof. induction n; intros; [reflexivity|]. cbn. rewrite (H n) by lia. rewrite IHn; [lia|]. intros; apply H; lia. Qed.

(** * What each program point holds *)

Section P.
Variable ns : N.
Variable hash : bytes -> N -> N.
Hypothesis ns_pos : 0 < ns.

Notation instr := (instr ns hash).

Definition mem (j : N) (l : list N) : bool := existsb (N.eqb j) l.
Lemma mem_in : forall j l, mem j l = true <-> In j l.
Proof.
  intros. unfold mem. rewrite existsb_exists. split.
  - intros (x & Hx & E). apply N.eqb_eq in E. subst. exact Hx.
  - intros H. exists j. split; [exact H|apply N.eqb_refl].
Qed.

Definition held (p : pc) (j : N) : option mode :=
  match p with
  | OneChk md k n | OneRel md k n => if j =? hash k n mod ns then Some md else None
  | OwnOne md _ b | IdxChk md b _ | IdxRel md b | OwnIdx md b => if j =? b mod ns then Some md else None
  | All md i | UnAll md i => if j <? i then Some md else None
  | OwnAll md => if j <? ns then Some md else None
  | MultiLoad md _ => if j =? 0 then Some md else None
  | MultiLock md _ _ done _ => if (j =? 0) || mem j done then Some md else None
  | OwnMulti md _ bs => if mem j (slotset (map (fun b => b mod ns) bs)) then Some md else None
  | UnMulti md rest => if mem j rest then Some md else None
  | _ => None
  end.

(** What is known at each program point, given the bucket count in force. *)
Definition wf (n : N) (p : pc) : Prop :=
  match p with
  | OwnOne _ k b => b = hash k n
  | OwnIdx _ b => b < n
  | IdxGot _ b n0 | IdxChk _ b n0 => b < n0
  | All _ i | UnAll _ i => i <= ns
  | MultiLock _ ks n0 done rest => n0 = n /\ done ++ rest = slotset (map (fun k => hash k n0 mod ns) ks)
  | OwnMulti _ ks bs => bs = map (fun k => hash k n) ks
  | UnMulti _ rest => NoDup rest
  | _ => True
  end.

Lemma wf_lock : forall n p md j p', wf n p -> instr p = ILock md j p' ->
  j < ns /\ (forall i, held p i <> None -> i < j) /\ held p' j = Some md /\ (forall i, i <> j -> held p' i = held p i) /\ wf n p'.
Proof.
  intros n p md j p' Hw Hi.
  assert (M : forall x, x mod ns < ns) by (intros; apply N.mod_lt; lia).
  destruct p; cbn in Hi; try discriminate; try (destruct (i =? 0); discriminate); try (destruct rest; discriminate).
  - injection Hi as <- <- <-. split; [apply M|]. split; [cbn; congruence|]. cbn. rewrite N.eqb_refl. split; [reflexivity|].
    split; [|exact I]. intros i Hne. destruct (N.eqb_spec i (hash k n0 mod ns)); [contradiction|reflexivity].
  - injection Hi as <- <- <-. split; [apply M|]. split; [cbn; congruence|]. cbn. rewrite N.eqb_refl. split; [reflexivity|].
    split; [|exact Hw]. intros i Hne. destruct (N.eqb_spec i (b mod ns)); [contradiction|reflexivity].
  - destruct (N.ltb_spec i ns) as [Hl|]; [|discriminate]. injection Hi as <- <- <-. split; [exact Hl|]. cbn. split.
    + intros x. destruct (N.ltb_spec x i); [auto|congruence].
    + split; [destruct (N.ltb_spec i (i + 1)); [reflexivity|lia]|]. split; [|lia].
      intros x Hne. destruct (N.ltb_spec x (i + 1)), (N.ltb_spec x i); try reflexivity; lia.
  - injection Hi as <- <- <-. split; [lia|]. split; [cbn; congruence|]. cbn. rewrite N.eqb_refl. split; [reflexivity|].
    split; [|exact I]. intros i Hne. destruct (N.eqb_spec i 0); [contradiction|reflexivity].
  - destruct rest as [|h r]; [destruct (existsb _ _); discriminate|]. destruct (N.eqb_spec h 0) as [|Hz]; [discriminate|].
    injection Hi as <- <- <-. cbn in Hw. destruct Hw as [-> Hw].
    assert (Hasc : asc (done ++ h :: r)) by (rewrite Hw; apply slotset_asc).
    assert (Hin : In h (map (fun k => hash k n mod ns) ks)).
    { apply slotset_in. rewrite <- Hw. apply in_or_app. right. left. reflexivity. }
    apply in_map_iff in Hin. destruct Hin as (k & Ek & _). split; [rewrite <- Ek; apply M|]. cbn [held]. split.
    + intros i. destruct (N.eqb_spec i 0); cbn [orb]; [lia|]. destruct (mem i done) eqn:Em; [|congruence]. intros _.
      apply mem_in in Em. eapply asc_app; [exact Hasc|exact Em|left; reflexivity].
    + assert (A : forall i, mem i (done ++ [h]) = (mem i done || (i =? h))).
      { intros i. unfold mem. rewrite existsb_app. cbn. rewrite orb_false_r. reflexivity. }
      rewrite A, N.eqb_refl, !orb_true_r. split; [reflexivity|]. split.
      * intros i Hne. rewrite A. apply N.eqb_neq in Hne. rewrite Hne, orb_false_r. reflexivity.
      * split; [reflexivity|]. rewrite <- app_assoc. exact Hw.
Qed.

Lemma wf_unlock : forall n p md j p', wf n p -> instr p = IUnlock md j p' ->
  held p j = Some md /\ held p' j = None /\ (forall i, i <> j -> held p' i = held p i) /\ wf n p'.
Proof.
  intros n p md j p' Hw Hi. destruct p; cbn in Hi; try discriminate; cbn [held].
  - injection Hi as <- <- <-. rewrite N.eqb_refl. cbn. split; [reflexivity|]. split; [reflexivity|]. split; [|exact I].
    intros i Hne. apply N.eqb_neq in Hne. rewrite Hne. reflexivity.
  - injection Hi as <- <- <-. rewrite N.eqb_refl. cbn. split; [reflexivity|]. split; [reflexivity|]. split; [|exact I].
    intros i Hne. apply N.eqb_neq in Hne. rewrite Hne. reflexivity.
  - injection Hi as <- <- <-. rewrite N.eqb_refl. cbn. split; [reflexivity|]. split; [reflexivity|]. split; [|exact I].
    intros i Hne. apply N.eqb_neq in Hne. rewrite Hne. reflexivity.
  - injection Hi as <- <- <-. rewrite N.eqb_refl. cbn. split; [reflexivity|]. split; [reflexivity|]. split; [|exact I].
    intros i Hne. apply N.eqb_neq in Hne. rewrite Hne. reflexivity.
  - destruct (i <? ns); discriminate.
  - destruct (N.eqb_spec i 0); [discriminate|]. injection Hi as <- <- <-. cbn in *.
    split; [destruct (N.ltb_spec (i - 1) i); [reflexivity|lia]|]. split; [destruct (N.ltb_spec (i - 1) (i - 1)); [lia|reflexivity]|].
    split; [|lia]. intros x Hne. destruct (N.ltb_spec x (i - 1)), (N.ltb_spec x i); try reflexivity; lia.
  - destruct rest as [|h r]; [|destruct (h =? 0); discriminate].
    destruct (existsb (N.eqb 0) done) eqn:E0; [discriminate|]. injection Hi as <- <- <-.
    cbn in Hw. destruct Hw as [-> Hw]. rewrite app_nil_r in Hw. subst done. cbn [held].
    rewrite map_map. unfold mem. rewrite E0. cbn. split; [reflexivity|]. split; [reflexivity|]. split; [|reflexivity].
    intros i Hne. apply N.eqb_neq in Hne. rewrite Hne. reflexivity.
  - destruct rest as [|h r]; [discriminate|]. injection Hi as <- <- <-. cbn in Hw. inversion Hw as [|a b Hn Hd]; subst.
    cbn [mem existsb]. rewrite N.eqb_refl. cbn. split; [reflexivity|]. split.
    + fold (mem h r). destruct (mem h r) eqn:E; [apply mem_in in E; contradiction|reflexivity].
    + split; [|exact Hd]. intros i Hne. apply N.eqb_neq in Hne. rewrite Hne. reflexivity.
Qed.

Lemma wf_go : forall n p f, wf n p -> instr p = IGo f -> (forall i, held (f n) i = held p i) /\ wf n (f n).
Proof.
  intros n p f Hw Hi. destruct p; cbn in Hi; try discriminate.
  - injection Hi as <-. split; [reflexivity|exact I].
  - injection Hi as <-. destruct (N.eqb_spec n n0) as [->|]; (split; [reflexivity|]; first [reflexivity|exact I]).
  - injection Hi as <-. destruct (N.leb_spec n b); (split; [reflexivity|]; first [exact I|exact H]).
  - injection Hi as <-. cbn in Hw. destruct (N.eqb_spec n n0) as [->|]; (split; [reflexivity|]; first [exact Hw|exact I]).
  - destruct (N.ltb_spec i ns); [discriminate|]. injection Hi as <-. cbn in *. split; [|exact I].
    assert (i = ns) as -> by lia. reflexivity.
  - injection Hi as <-. split; [reflexivity|]. cbn. lia.
  - destruct (N.eqb_spec i 0) as [->|]; [|discriminate]. injection Hi as <-. split; [|exact I]. intros j. cbn.
    destruct (N.ltb_spec j 0); [lia|reflexivity].
  - injection Hi as <-. cbn. split; [intros i; destruct (i =? 0); reflexivity|]. split; reflexivity.
  - cbn in Hw. destruct Hw as [-> Hw]. destruct rest as [|h r].
    + destruct (existsb (N.eqb 0) done) eqn:E0; [|discriminate]. injection Hi as <-. cbn [held wf]. split; [|reflexivity].
      rewrite map_map. rewrite app_nil_r in Hw. rewrite <- Hw. intros i. destruct (N.eqb_spec i 0) as [->|]; [|reflexivity].
      unfold mem. rewrite E0. reflexivity.
    + destruct (N.eqb_spec h 0) as [->|]; [|discriminate]. injection Hi as <-. cbn [held wf]. split.
      * intros i. unfold mem. rewrite existsb_app. cbn. destruct (i =? 0); cbn; [reflexivity|]. rewrite orb_false_r. reflexivity.
      * split; [reflexivity|]. rewrite <- app_assoc. exact Hw.
  - injection Hi as <-. cbn. split.
    + intros i. replace (mem i (rev (slotset (map (fun b => b mod ns) bs)))) with (mem i (slotset (map (fun b => b mod ns) bs))); [reflexivity|].
      apply eq_true_iff_eq. rewrite !mem_in. apply in_rev.
    + apply NoDup_rev. apply asc_nodup. apply slotset_asc.
  - destruct rest; [|discriminate]. injection Hi as <-. split; [reflexivity|exact I].
Qed.

(** * Invariant *)

Definition isM (md : mode) (j : N) (p : pc) : bool :=
  match held p j, md with Some MX, MX => true | Some MS, MS => true | _, _ => false end.

Definition slot_ok (nt : nat) (s : sys) (j : N) : Prop :=
  (count (isM MX j) (spc s) nt = 0%nat /\ sl s j = mkSlot false (count (isM MS j) (spc s) nt)) \/
  (count (isM MX j) (spc s) nt = 1%nat /\ count (isM MS j) (spc s) nt = 0%nat /\ sl s j = mkSlot true 0).

Definition inv (nt : nat) (s : sys) : Prop :=
  (forall j, slot_ok nt s j) /\ (forall t, wf (nb s) (spc s t)) /\ (forall t, (nt <= t)%nat -> spc s t = Idle).

Lemma isM_some : forall md j p, isM md j p = true <-> held p j = Some md.
Proof. intros. unfold isM. destruct (held p j) as [[|]|], md; split; congruence. Qed.

Lemma counts_keep : forall nt g t p md j, (t < nt)%nat -> held p j = held (g t) j ->
  count (isM md j) (upd g t p) nt = count (isM md j) g nt.
Proof.
  intros nt g t p md j Ht He. apply count_ext. intros i _. unfold upd. destruct (Nat.eqb_spec i t) as [->|]; [|reflexivity].
  unfold isM. rewrite He. reflexivity.
Qed.

(** The owner of all slots excludes every other holder, so that changing the bucket count hurts nobody. *)
Lemma alone : forall nt s t, inv nt s -> spc s t = OwnAll MX -> forall u, u <> t -> forall j, j < ns -> held (spc s u) j = None.
Proof.
  intros nt s t (Hs & Hw & Hi) Ht u Hu j Hj.
  destruct (held (spc s u) j) as [md|] eqn:E; [|reflexivity]. exfalso.
  assert (Htn : (t < nt)%nat) by (destruct (le_lt_dec nt t) as [G|G]; [rewrite (Hi t G) in Ht; discriminate|exact G]).
  assert (Hun : (u < nt)%nat) by (destruct (le_lt_dec nt u) as [G|G]; [rewrite (Hi u G) in E; discriminate|exact G]).
  assert (T : isM MX j (spc s t) = true).
  { apply isM_some. rewrite Ht. cbn. destruct (N.ltb_spec j ns); [reflexivity|lia]. }
  pose proof (count_pos _ _ _ _ Htn T) as C1.
  destruct md.
  - assert (U : isM MX j (spc s u) = true) by (apply isM_some; exact E).
    pose proof (count_two _ _ _ _ _ Htn Hun (not_eq_sym Hu) T U). destruct (Hs j) as [[A _]|[A _]]; lia.
  - assert (U : isM MS j (spc s u) = true) by (apply isM_some; exact E).
    pose proof (count_pos _ _ _ _ Hun U). destruct (Hs j) as [[A _]|(A & B & _)]; lia.
Qed.

Lemma wf_nobody : forall n n' p, wf n p -> (forall j, j < ns -> held p j = None) -> wf n' p.
Proof.
  intros n n' p Hw Hh. destruct p; try exact Hw; try exact I.
  - exfalso. specialize (Hh (b mod ns) ltac:(apply N.mod_lt; lia)). cbn in Hh. rewrite N.eqb_refl in Hh. discriminate.
  - exfalso. specialize (Hh (b mod ns) ltac:(apply N.mod_lt; lia)). cbn in Hh. rewrite N.eqb_refl in Hh. discriminate.
  - exfalso. specialize (Hh 0 ns_pos). cbn in Hh. discriminate.
  - cbn in Hw. subst bs. destruct ks as [|k ks]; [reflexivity|]. exfalso.
    specialize (Hh (hash k n mod ns) ltac:(apply N.mod_lt; lia)). cbn [held] in Hh.
    destruct (mem (hash k n mod ns) (slotset (map (fun b => b mod ns) (map (fun k => hash k n) (k :: ks))))) eqn:E; [discriminate|].
    assert (F : mem (hash k n mod ns) (slotset (map (fun b => b mod ns) (map (fun k => hash k n) (k :: ks)))) = true).
    { apply mem_in. apply slotset_in. left. reflexivity. }
    congruence.
Qed.

Lemma inv_step : forall nt t s s', (t < nt)%nat -> inv nt s -> step ns hash may_all t s s' -> inv nt s'.
Proof.
  intros nt t s s' Ht Hinv Hst. pose proof Hinv as (Hs & Hw & Hi).
  assert (Hi' : forall g p, (forall u, (nt <= u)%nat -> g u = Idle) -> forall u, (nt <= u)%nat -> upd g t p u = Idle).
  { intros g p Hg u Hu. rewrite upd_other by lia. apply Hg. exact Hu. }
  assert (Call : forall n f g p, s = mkSys n f g -> g t = Idle -> (forall j, held p j = None) -> wf n p ->
            inv nt (mkSys n f (upd g t p))).
  { intros n f g p -> Hg Hh Hp. split; [|split].
    - intros j. specialize (Hs j). unfold slot_ok in *. cbn [spc sl] in *. rewrite !counts_keep; try exact Ht; try exact Hs;
      rewrite Hg, Hh; reflexivity.
    - intros u. cbn. unfold upd. destruct (Nat.eqb u t); [exact Hp|apply (Hw u)].
    - apply Hi'. exact Hi. }
  destruct Hst as [n f g md k E|n f g md b E|n f g md E|n f g md ks E|n f g md j p m E A|n f g md j p E|n f g h E|n f g n' E].
  - eapply Call; try reflexivity; try exact E; try exact I; intros; reflexivity.
  - eapply Call; try reflexivity; try exact E; try exact I; intros; reflexivity.
  - eapply Call; try reflexivity; try exact E; try (cbn; lia). intros j. cbn. destruct (N.ltb_spec j 0); [lia|reflexivity].
  - eapply Call; try reflexivity; try exact E; try exact I; intros; reflexivity.
  - cbn [spc nb] in *. destruct (wf_lock _ _ _ _ _ (Hw t) E) as (Hj & Hlow & Hnew & Hold & Hwf).
    assert (Hn : held (g t) j = None).
    { destruct (held (g t) j) eqn:Eh; [|reflexivity]. exfalso. specialize (Hlow j ltac:(congruence)). lia. }
    split; [|split].
    + intros i. specialize (Hs i). unfold slot_ok in *. cbn [spc sl] in *. unfold updS.
      destruct (N.eqb_spec i j) as [->|Hne].
      * pose proof (count_upd (isM MX j) g t p nt Ht) as CX. pose proof (count_upd (isM MS j) g t p nt Ht) as CS.
        unfold isM at 2 4 in CX. unfold isM at 2 4 in CS. rewrite Hn, Hnew in CX, CS.
        destruct Hs as [[A1 A2]|(A1 & A2 & A3)].
        -- rewrite A2 in A. unfold acq in A. cbn in A. destruct md; cbn in CX, CS.
           ++ destruct (count (isM MS j) g nt) eqn:E0; [|discriminate]. injection A as <-. right. repeat split; lia.
           ++ injection A as <-. left. split; [lia|]. f_equal. lia.
        -- rewrite A3 in A. unfold acq in A. cbn in A. destruct md; discriminate.
      * rewrite !counts_keep; try exact Ht; try exact Hs; apply Hold; exact Hne.
    + intros u. cbn. unfold upd. destruct (Nat.eqb u t); [exact Hwf|apply Hw].
    + apply Hi'. exact Hi.
  - cbn [spc nb] in *. destruct (wf_unlock _ _ _ _ _ (Hw t) E) as (Hhad & Hnew & Hold & Hwf).
    split; [|split].
    + intros i. specialize (Hs i). unfold slot_ok in *. cbn [spc sl] in *. unfold updS.
      destruct (N.eqb_spec i j) as [->|Hne].
      * pose proof (count_upd (isM MX j) g t p nt Ht) as CX. pose proof (count_upd (isM MS j) g t p nt Ht) as CS.
        unfold isM at 2 4 in CX. unfold isM at 2 4 in CS. rewrite Hhad, Hnew in CX, CS.
        destruct Hs as [[A1 A2]|(A1 & A2 & A3)]; destruct md; cbn in CX, CS; try lia.
        -- left. split; [lia|]. rewrite A2. unfold rel. cbn. f_equal. lia.
        -- left. split; [lia|]. rewrite A3. unfold rel. f_equal. lia.
      * rewrite !counts_keep; try exact Ht; try exact Hs; apply Hold; exact Hne.
    + intros u. cbn. unfold upd. destruct (Nat.eqb u t); [exact Hwf|apply Hw].
    + apply Hi'. exact Hi.
  - cbn [spc nb] in *. destruct (wf_go _ _ _ (Hw t) E) as (Hold & Hwf).
    split; [|split].
    + intros i. specialize (Hs i). unfold slot_ok in *. cbn [spc sl] in *. rewrite !counts_keep; try exact Ht; try exact Hs; apply Hold.
    + intros u. cbn. unfold upd. destruct (Nat.eqb u t); [exact Hwf|apply Hw].
    + apply Hi'. exact Hi.
  - split; [exact Hs|]. split; [|exact Hi]. cbn [spc nb] in *.
    assert (Et : g t = OwnAll MX) by (destruct (g t) as [| | | | | | | | | | | |[]| | | | | |]; cbn in E; congruence).
    intros u. destruct (Nat.eq_dec u t) as [->|Hu]; [rewrite Et; exact I|].
    apply (wf_nobody n); [apply Hw|]. apply (alone _ _ _ Hinv Et u Hu).
Qed.

Lemma inv_reach : forall nt s, reach ns hash may_all nt s -> inv nt s.
Proof.
  intros nt s H. induction H as [n|s t s' Hr IH Ht Hst]; [|eapply inv_step; eassumption].
  split; [|split]; [|intros; exact I|reflexivity].
  intros j. left. unfold slot_ok. cbn. rewrite !count_zero by reflexivity. split; reflexivity.
Qed.


(** * Waiting *)

(** Thread [t] waits for slot [j]: it is about to lock the slot, and cannot. *)
Definition waits (s : sys) (t : nat) (j : N) : Prop :=
  exists md p, instr (spc s t) = ILock md j p /\ acq md (sl s j) = None.

(** A thread that is inside a method can go on or waits for a slot. *)
Lemma go_or_wait : forall s t, spc s t <> Idle ->
  (exists s', step ns hash (fun _ => false) t s s') \/ exists j, waits s t j.
Proof.
  intros s t Hn. destruct s as [n f g]. cbn in Hn.
  destruct (instr (g t)) as [md j p|md j p|h|] eqn:E.
  - destruct (acq md (f j)) as [m|] eqn:A.
    + left. eexists. eapply s_lock; eassumption.
    + right. exists j, md, p. split; assumption.
  - left. eexists. eapply s_unlock; eassumption.
  - left. eexists. eapply s_go; eassumption.
  - exfalso. destruct (g t); cbn in E; try discriminate; try congruence;
      repeat match type of E with context [match ?x with _ => _ end] => destruct x end; discriminate.
Qed.

(** A slot waited for is owned by another thread. *)
Lemma waits_holder : forall nt s t j, inv nt s -> (t < nt)%nat -> waits s t j ->
  j < ns /\ (forall i, held (spc s t) i <> None -> i < j) /\ exists u, (u < nt)%nat /\ u <> t /\ held (spc s u) j <> None.
Proof.
  intros nt s t j (Hs & Hw & Hi) Ht (md & p & E & A).
  destruct (wf_lock _ _ _ _ _ (Hw t) E) as (Hj & Hlow & _ & _ & _).
  split; [exact Hj|]. split; [exact Hlow|].
  assert (G : exists u, (u < nt)%nat /\ held (spc s u) j <> None).
  { destruct (Hs j) as [[A1 A2]|(A1 & A2 & A3)].
    - rewrite A2 in A. unfold acq in A. cbn in A. destruct md; [|discriminate].
      destruct (count (isM MS j) (spc s) nt) eqn:C; [discriminate|].
      destruct (count_some (isM MS j) (spc s) nt) as (u & Hu & P); [lia|]. apply isM_some in P. exists u. split; [exact Hu|congruence].
    - destruct (count_some (isM MX j) (spc s) nt) as (u & Hu & P); [lia|]. apply isM_some in P. exists u. split; [exact Hu|congruence]. }
  destruct G as (u & Hu & P). exists u. split; [exact Hu|]. split; [|exact P].
  intros ->. specialize (Hlow j P). lia.
Qed.

Lemma chain : forall nt s, inv nt s -> forall d t j, (t < nt)%nat -> waits s t j -> (N.to_nat (ns - j) <= d)%nat ->
  exists u, (u < nt)%nat /\ spc s u <> Idle /\ exists s', step ns hash (fun _ => false) u s s'.
Proof.
  intros nt s Hinv. induction d as [|d IH]; intros t j Ht W Hd.
  - destruct (waits_holder _ _ _ _ Hinv Ht W) as (Hj & _). lia.
  - destruct (waits_holder _ _ _ _ Hinv Ht W) as (Hj & _ & u & Hu & Hut & Hh).
    assert (Hnu : spc s u <> Idle) by (intros E; rewrite E in Hh; apply Hh; reflexivity).
    destruct (go_or_wait s u Hnu) as [G|(j' & W')]; [exists u; auto|].
    destruct (waits_holder _ _ _ _ Hinv Hu W') as (Hj' & Hlow & _).
    specialize (Hlow j Hh). apply (IH u j' Hu W'). lia.
Qed.

(** * A measure for calls in progress *)

Definition mu (n : N) (p : pc) : nat :=
  match p with
  | Idle => 0
  | One _ _ => 4
  | OneGot _ _ m => if N.eqb m n then 3 else 7
  | OneChk _ _ m => if N.eqb m n then 2 else 6
  | OneRel _ _ _ => 5
  | OwnOne _ _ _ => 1
  | Idx _ _ => 4
  | IdxGot _ _ _ => 3
  | IdxChk _ _ _ => 2
  | IdxRel _ _ => 1
  | OwnIdx _ _ => 1
  | All _ i => 3 + N.to_nat ns + N.to_nat (ns - i)
  | OwnAll _ => 2 + N.to_nat ns
  | UnAll _ i => 1 + N.to_nat i
  | Multi _ ks => 6 + 2 * length ks
  | MultiLoad _ ks => 5 + 2 * length ks
  | MultiLock _ ks _ _ rest => 4 + length ks + length rest
  | OwnMulti _ _ bs => 3 + length bs
  | UnMulti _ rest => 1 + length rest
  end%nat.

Lemma set_ins_len : forall x l, (length (set_ins x l) <= S (length l))%nat.
Proof. induction l as [|y r IH]; cbn; [lia|]. destruct (x <? y); cbn; [lia|]. destruct (x =? y); cbn; lia. Qed.
Lemma slotset_len : forall l, (length (slotset l) <= length l)%nat.
Proof. induction l as [|x r IH]; cbn; [lia|]. pose proof (set_ins_len x (slotset r)). lia. Qed.

Definition next (n : N) (p : pc) : option pc :=
  match instr p with ILock _ _ p' | IUnlock _ _ p' => Some p' | IGo h => Some (h n) | INone => None end.

Lemma mu_next : forall n p p', wf n p -> next n p = Some p' -> (mu n p' < mu n p)%nat.
Proof.
  intros n p p' Hw H. unfold next in H. destruct p; cbn in H; try discriminate; cbn in Hw;
    try (injection H as <-; cbn; try rewrite N.eqb_refl; try rewrite (N.eqb_sym n n0); repeat match goal with |- context [if ?b then _ else _] => destruct b eqn:? end; cbn; lia);
    try (injection H as <-; cbn; pose proof (slotset_len (map (fun k => hash k n mod ns) ks)) as L; rewrite map_length in L; lia).
  - destruct (N.ltb_spec i ns); injection H as <-; cbn; lia.
  - destruct (N.eqb_spec i 0); injection H as <-; cbn; lia.
  - destruct rest as [|h r].
    + destruct (existsb (N.eqb 0) done); injection H as <-; cbn; rewrite map_length; lia.
    + destruct (h =? 0); injection H as <-; cbn; lia.
  - injection H as <-. cbn. rewrite rev_length. pose proof (slotset_len (map (fun b => b mod ns) bs)) as L. rewrite map_length in L. lia.
  - destruct rest; injection H as <-; cbn; lia.
Qed.

Fixpoint total (n : N) (g : nat -> pc) (k : nat) : nat := match k with O => O | S j => (total n g j + mu n (g j))%nat end.

Lemma total_upd : forall n g t p k, (t < k)%nat -> (total n (upd g t p) k + mu n (g t) = total n g k + mu n p)%nat.
Proof.
  induction k; intros Ht; [lia|]. cbn. destruct (Nat.eq_dec t k) as [->|].
  - rewrite upd_same. assert (E : forall j, (j <= k)%nat -> total n (upd g k p) j = total n g j).
    { induction j; intros Hj; [reflexivity|]. cbn. rewrite IHj by lia. rewrite upd_other by lia. reflexivity. }
    rewrite E by lia. lia.
  - rewrite (upd_other g t p k) by lia. specialize (IHk ltac:(lia)). lia.
Qed.

Lemma total_step : forall nt t s s', inv nt s -> (t < nt)%nat -> spc s t <> Idle -> step ns hash (fun _ => false) t s s' ->
  nb s' = nb s /\ (total (nb s') (spc s') nt < total (nb s) (spc s) nt)%nat.
Proof.
  intros nt t s s' (_ & Hw & _) Ht Hn Hst. specialize (Hw t).
  destruct Hst; cbn [nb spc] in *; try contradiction; try discriminate.
  - split; [reflexivity|]. pose proof (total_upd n g t p nt Ht). pose proof (mu_next n (g t) p Hw ltac:(unfold next; rewrite H; reflexivity)). lia.
  - split; [reflexivity|]. pose proof (total_upd n g t p nt Ht). pose proof (mu_next n (g t) p Hw ltac:(unfold next; rewrite H; reflexivity)). lia.
  - split; [reflexivity|]. pose proof (total_upd n g t (h n) nt Ht). pose proof (mu_next n (g t) (h n) Hw ltac:(unfold next; rewrite H; reflexivity)). lia.
Qed.

(** [n] steps of threads that are inside a method or own slots, without new calls and without Rehash. *)
Inductive finishing (nt : nat) : nat -> sys -> sys -> Prop :=
| f_0 : forall s, finishing nt 0 s s
| f_S : forall n s t s' s'', (t < nt)%nat -> spc s t <> Idle -> step ns hash (fun _ => false) t s s' ->
    finishing nt n s' s'' -> finishing nt (S n) s s''.

Lemma weaken : forall t s s', step ns hash (fun _ => false) t s s' -> step ns hash may_all t s s'.
Proof.
  intros t s s' H. destruct H; try discriminate;
  [apply s_call_one|apply s_call_idx|apply s_call_all|apply s_call_multi|eapply s_lock|eapply s_unlock|eapply s_go]; eassumption.
Qed.

(** * C32 *)

(** LockOne(key), LockOne(index), LockMulti and their shared variants: whatever the interleaving with other callers and
    with Rehash, the buckets they return are those of the keys under the bucket count in force as long as they are held. *)
Theorem C32_index : forall nt s t, reach ns hash may_all nt s ->
  match spc s t with
  | OwnOne _ k b => b = hash k (nb s)
  | OwnIdx _ b => b < nb s
  | OwnMulti _ ks bs => bs = map (fun k => hash k (nb s)) ks
  | _ => True
  end.
Proof.
  intros nt s t H. destruct (inv_reach _ _ H) as (_ & Hw & _). specialize (Hw t).
  destruct (spc s t); try exact I; exact Hw.
Qed.

Lemma owns_held : forall n s t md b, wf n (spc s t) -> owns s t md b -> held (spc s t) (b mod ns) = Some md.
Proof.
  intros n s t md b Hw Ho. unfold owns in Ho. destruct (spc s t); try contradiction; cbn [held].
  - destruct Ho as [-> ->]. rewrite N.eqb_refl. reflexivity.
  - destruct Ho as [-> ->]. rewrite N.eqb_refl. reflexivity.
  - subst md0. destruct (N.ltb_spec (b mod ns) ns); [reflexivity|]. exfalso. pose proof (N.mod_lt b ns ltac:(lia)). lia.
  - destruct Ho as [-> Hin]. replace (mem (b mod ns) (slotset (map (fun b => b mod ns) bs))) with true; [reflexivity|].
    symmetry. apply mem_in, slotset_in. exact (in_map (fun b => b mod ns) _ _ Hin).
Qed.

(** A bucket owned exclusively has no other owner; in particular two callers never own the same key unless both only read. *)
Theorem C32_exclusion : forall nt s t u md b, reach ns hash may_all nt s -> t <> u ->
  owns s t MX b -> ~ owns s u md b.
Proof.
  intros nt s t u md b H Htu Ho Ho'. destruct (inv_reach _ _ H) as (Hs & Hw & Hi).
  pose proof (owns_held _ _ _ _ _ (Hw t) Ho) as E. pose proof (owns_held _ _ _ _ _ (Hw u) Ho') as E'.
  assert (Htn : (t < nt)%nat) by (destruct (le_lt_dec nt t) as [G|G]; [rewrite (Hi t G) in E; discriminate|exact G]).
  assert (Hun : (u < nt)%nat) by (destruct (le_lt_dec nt u) as [G|G]; [rewrite (Hi u G) in E'; discriminate|exact G]).
  apply isM_some in E. apply isM_some in E'. destruct md.
  - pose proof (count_two _ _ _ _ _ Htn Hun Htu E E'). destruct (Hs (b mod ns)) as [[A _]|[A _]]; lia.
  - pose proof (count_pos _ _ _ _ Htn E). pose proof (count_pos _ _ _ _ Hun E'). destruct (Hs (b mod ns)) as [[A _]|(A & B & _)]; lia.
Qed.

(** No deadlock: as long as some thread is inside a method or owns slots, one of those threads can take a step. *)
Theorem C32_no_deadlock : forall nt s t, reach ns hash may_all nt s -> spc s t <> Idle ->
  exists u s', spc s u <> Idle /\ step ns hash (fun _ => false) u s s'.
Proof.
  intros nt s t H Hn. pose proof (inv_reach _ _ H) as Hinv.
  destruct (go_or_wait s t Hn) as [[s' G]|(j & W)]; [exists t, s'; auto|].
  assert (Ht : (t < nt)%nat).
  { destruct Hinv as (_ & _ & Hi). destruct (le_lt_dec nt t) as [G|G]; [rewrite (Hi t G) in Hn; congruence|exact G]. }
  destruct (chain nt s Hinv _ t j Ht W (le_n _)) as (u & _ & Hu & s' & G). exists u, s'. auto.
Qed.

(** A waiting thread waits for a thread that owns a slot: when no thread is between the return of a locking method and the
    call of its unlocking method, some thread inside a locking or unlocking method can go on. *)
Theorem C32_calls_progress : forall nt s t, reach ns hash may_all nt s -> in_call s t -> (forall u, ~ returned s u) ->
  exists u s', in_call s u /\ step ns hash (fun _ => false) u s s'.
Proof.
  intros nt s t H [Hn _] Hr. destruct (C32_no_deadlock _ _ _ H Hn) as (u & s' & Hu & G). exists u, s'.
  split; [split; [exact Hu|apply Hr]|exact G].
Qed.

(** Every call finishes: from any reachable state, threads that only complete their current calls and release what they
    own take a bounded number of steps, in whatever order, and when none can go on all of them are outside the mutex. *)
Theorem C32_terminates : forall nt s, reach ns hash may_all nt s -> exists bound,
  forall n s', finishing nt n s s' ->
    (n <= bound)%nat /\
    ((forall u s'', (u < nt)%nat -> spc s' u <> Idle -> ~ step ns hash (fun _ => false) u s' s'') -> forall u, spc s' u = Idle).
Proof.
  intros nt s H. exists (total (nb s) (spc s) nt). intros n s' Hf. induction Hf as [s|n s t s1 s2 Ht Hn Hst Hf IH].
  - split; [lia|]. intros Hstuck u. destruct (inv_reach _ _ H) as (_ & _ & Hi).
    destruct (spc s u) eqn:E; try reflexivity; exfalso;
    (destruct (C32_no_deadlock nt s u H) as (v & s'' & Hv & G); [congruence|];
     apply (Hstuck v s''); [|exact Hv|exact G]; destruct (le_lt_dec nt v) as [L|L]; [rewrite (Hi v L) in Hv; congruence|exact L]).
  - assert (H' : reach ns hash may_all nt s1) by (eapply r_step; [exact H|exact Ht|apply weaken; exact Hst]).
    destruct (IH H') as [B S]. destruct (total_step nt t s s1 (inv_reach _ _ H) Ht Hn Hst) as [E L]. split; [lia|exact S].
Qed.

(** LockMulti acquires its slots in strictly ascending order, each once. *)
Theorem C32_ascending : forall nt s t j, reach ns hash may_all nt s -> waits s t j ->
  forall i, held (spc s t) i <> None -> i < j.
Proof.
  intros nt s t j H (md & p & E & A). destruct (inv_reach _ _ H) as (_ & Hw & _).
  exact (proj1 (proj2 (wf_lock _ _ _ _ _ (Hw t) E))).
Qed.

End P.

(** * The documented precondition of Rehash is too weak *)

Definition hmod (k : bytes) (n : N) : N := nth 0 k 0 mod n.

Lemma stepr : forall may nt t s s', reach 4 hmod may nt s -> (t < nt)%nat -> step 4 hmod may t s s' -> reach 4 hmod may nt s'.
Proof. intros. eapply r_step; eassumption. Qed.

(** The header only asks the caller of Rehash to have called LockOne; then another caller can own a bucket that is no longer that of its key. *)
Theorem C32_rehash_doc_refuted : exists s t k b,
  reach 4 hmod may_one 2 s /\ spc s t = OwnOne MX k b /\ b <> hmod k (nb s).
Proof.
  pose proof (r_init 4 hmod may_one 2 8) as R.
  eapply (stepr _ _ 0%nat) in R; [|lia|apply (s_call_one _ _ _ _ _ _ _ MX [1]); reflexivity].
  eapply (stepr _ _ 0%nat) in R; [|lia|eapply s_go; reflexivity].
  eapply (stepr _ _ 0%nat) in R; [|lia|eapply s_lock; [reflexivity|reflexivity]].
  eapply (stepr _ _ 0%nat) in R; [|lia|eapply s_go; reflexivity].
  eapply (stepr _ _ 1%nat) in R; [|lia|apply (s_call_one _ _ _ _ _ _ _ MX [6]); reflexivity].
  eapply (stepr _ _ 1%nat) in R; [|lia|eapply s_go; reflexivity].
  eapply (stepr _ _ 1%nat) in R; [|lia|eapply s_lock; [reflexivity|reflexivity]].
  eapply (stepr _ _ 1%nat) in R; [|lia|eapply s_go; reflexivity].
  eapply (stepr _ _ 0%nat) in R; [|lia|apply (s_rehash _ _ _ _ _ _ _ 5); reflexivity].
  eexists. exists 1%nat, [6], 6. split; [exact R|]. split; [reflexivity|]. cbn. discriminate.
Qed.

(** A caller of LockOne whose slot was chosen under an old bucket count, with Rehash in between: it notices and is about to retry. *)
Example C32_index_ex : exists s,
  reach 4 hmod may_all 2 s /\ nb s = 5 /\ spc s 1%nat = OneRel MX [6] 8 /\ spc s 0%nat = Idle.
Proof.
  pose proof (r_init 4 hmod may_all 2 8) as R.
  eapply (stepr _ _ 0%nat) in R; [|lia|apply (s_call_all _ _ _ _ _ _ _ MX); reflexivity].
  do 4 (eapply (stepr _ _ 0%nat) in R; [|lia|eapply s_lock; [reflexivity|reflexivity]]).
  eapply (stepr _ _ 0%nat) in R; [|lia|eapply s_go; reflexivity].
  eapply (stepr _ _ 1%nat) in R; [|lia|apply (s_call_one _ _ _ _ _ _ _ MX [6]); reflexivity].
  eapply (stepr _ _ 1%nat) in R; [|lia|eapply s_go; reflexivity].
  eapply (stepr _ _ 0%nat) in R; [|lia|apply (s_rehash _ _ _ _ _ _ _ 5); reflexivity].
  eapply (stepr _ _ 0%nat) in R; [|lia|eapply s_go; reflexivity].
  do 4 (eapply (stepr _ _ 0%nat) in R; [|lia|eapply s_unlock; reflexivity]).
  eapply (stepr _ _ 0%nat) in R; [|lia|eapply s_go; reflexivity].
  eapply (stepr _ _ 1%nat) in R; [|lia|eapply s_lock; [reflexivity|reflexivity]].
  eapply (stepr _ _ 1%nat) in R; [|lia|eapply s_go; reflexivity].
  eexists. split; [exact R|]. repeat split.
Qed.

(** LockMulti of three keys in slots 2, 3, 3, waiting for slot 3, which another thread owns. *)
Example C32_no_deadlock_ex : exists s,
  reach 4 hmod may_all 2 s /\ waits 4 hmod s 1%nat 3 /\ owns s 0%nat MS 3.
Proof.
  pose proof (r_init 4 hmod may_all 2 8) as R.
  eapply (stepr _ _ 0%nat) in R; [|lia|apply (s_call_idx _ _ _ _ _ _ _ MS 3); reflexivity].
  eapply (stepr _ _ 0%nat) in R; [|lia|eapply s_go; reflexivity].
  eapply (stepr _ _ 0%nat) in R; [|lia|eapply s_lock; [reflexivity|reflexivity]].
  eapply (stepr _ _ 0%nat) in R; [|lia|eapply s_go; reflexivity].
  eapply (stepr _ _ 1%nat) in R; [|lia|apply (s_call_multi _ _ _ _ _ _ _ MX [[7]; [2]; [3]]); reflexivity].
  eapply (stepr _ _ 1%nat) in R; [|lia|eapply s_lock; [reflexivity|reflexivity]].
  eapply (stepr _ _ 1%nat) in R; [|lia|eapply s_go; reflexivity].
  eapply (stepr _ _ 1%nat) in R; [|lia|eapply s_lock; [reflexivity|reflexivity]].
  eexists. split; [exact R|]. split; [|split; reflexivity]. eexists. eexists. split; reflexivity.
Qed.

Print Assumptions C32_index.
Print Assumptions C32_exclusion.
Print Assumptions C32_no_deadlock.
Print Assumptions C32_calls_progress.
Print Assumptions C32_terminates.
Print Assumptions C32_ascending.
Print Assumptions C32_rehash_doc_refuted.
