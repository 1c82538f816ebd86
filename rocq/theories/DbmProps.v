(** C09, C10: the operations of the DBM interface have their documented effects
    on any database whose Process, ProcessMulti and ProcessFirst do what they
    are documented to do.  Source: /repo/tkrzw_dbm.h. *)
From Coq Require Import Sorted.
From Verif Require Import Bytes BytesOrder CodecModel CodecProofs StrSerialModel StrSerialProofs StatusModel DbmModel.
Local Open Scope N_scope.

(** * StdTreeDBM is such a database *)
Definition l_sorted (l : list (bytes * bytes)) : Prop := StronglySorted (fun a b => blt (fst a) (fst b)) l.
Lemma l_get_none l k : Forall (fun b => blt k (fst b)) l -> l_get l k = None.
Proof.
  induction 1 as [|[k' v] l H F IH]; cbn [l_get]; [reflexivity|]. cbn in H.
  destruct (beqb_spec k' k) as [->|]; [destruct (blt_irrefl _ H)|exact IH].
Qed.
Lemma l_get_del l k : l_sorted l -> forall k', l_get (l_del l k) k' = adel (l_get l) k k'.
Proof.
  induction 1 as [|[a v] l H IH F]; intros k'; cbn [l_del l_get]; unfold adel in *; [destruct (beqb k k'); reflexivity|].
  destruct (beqb_spec a k) as [->|Hn].
  - destruct (beqb_spec k k') as [<-|]; [apply l_get_none; exact F|reflexivity].
  - cbn [l_get]. rewrite IH. destruct (beqb_spec a k') as [->|]; [|reflexivity].
    destruct (beqb_spec k k'); [congruence|reflexivity].
Qed.
Lemma l_get_put l k v : l_sorted l -> forall k', l_get (l_put l k v) k' = aset (l_get l) k v k'.
Proof.
  induction 1 as [|[a w] l H IH F]; intros k'; cbn [l_put l_get]; unfold aset in *; [reflexivity|].
  destruct (bcmp k a) eqn:C.
  - apply bcmp_eq in C. subst a. cbn [l_get]. destruct (beqb k k'); reflexivity.
  - cbn [l_get]. reflexivity.
  - cbn [l_get]. rewrite IH. destruct (beqb_spec a k') as [->|]; [|reflexivity].
    destruct (beqb_spec k k') as [->|]; [rewrite bcmp_refl in C; discriminate|reflexivity].
Qed.
Lemma l_del_incl l k x : In x (l_del l k) -> In x l.
Proof.
  induction l as [|[a v] l IH]; cbn [l_del]; [tauto|]. destruct (beqb a k); cbn [In]; tauto.
Qed.
Lemma l_del_sorted l k : l_sorted l -> l_sorted (l_del l k).
Proof.
  induction 1 as [|[a v] l H IH F]; cbn [l_del]; [constructor|]. destruct (beqb a k); [exact H|].
  constructor; [exact IH|]. apply Forall_forall. intros x Hx. rewrite Forall_forall in F. eapply F, l_del_incl, Hx.
Qed.
Lemma l_put_in l k v x : In x (l_put l k v) -> fst x = k \/ In x l.
Proof.
  induction l as [|[a w] l IH]; cbn [l_put In]; [intros [<-|[]]; auto|].
  destruct (bcmp k a) eqn:C; cbn [In].
  - apply bcmp_eq in C. subst a. intros [<-|H]; auto.
  - intros [<-|H]; auto.
  - intros [<-|H]; [auto|]. destruct (IH H); auto.
Qed.
Lemma l_put_sorted l k v : l_sorted l -> l_sorted (l_put l k v).
Proof.
  induction 1 as [|[a w] l H IH F]; cbn [l_put]; [constructor; constructor|].
  destruct (bcmp k a) eqn:C.
  - constructor; assumption.
  - constructor; [constructor; assumption|]. constructor; [exact C|].
    apply Forall_forall. intros x Hx. rewrite Forall_forall in F. apply (blt_trans _ a); [exact C|apply F, Hx].
  - constructor; [exact IH|]. apply Forall_forall. intros x Hx. apply l_put_in in Hx. rewrite Forall_forall in F.
    cbn. destruct Hx as [E|Hx]; [rewrite E; apply bcmp_gt; exact C|apply F, Hx].
Qed.
Lemma l_act_spec l k a : l_sorted l -> l_sorted (l_act l k a) /\ same_map (l_get (l_act l k a)) (act (l_get l) k a).
Proof.
  intros H. destruct a as [| |v]; cbn [l_act act].
  - split; [exact H|intros k'; reflexivity].
  - split; [apply l_del_sorted, H|intros k'; apply l_get_del, H].
  - split; [apply l_put_sorted, H|intros k'; apply l_get_put, H].
Qed.
Lemma l_process_spec S l k (p : proc S) w s : l_sorted l ->
  let '(c, l', s') := l_process l k p w s in
  c = SUCCESS /\ l_sorted l' /\ same_map (l_get l') (fst (ref_process (l_get l) k p w s)) /\ s' = snd (ref_process (l_get l) k p w s).
Proof.
  intros H. unfold l_process, ref_process, call.
  destruct (match l_get l k with Some v => on_full p k v s | None => on_empty p k s end) as [a s'].
  split; [reflexivity|]. cbn [fst snd]. destruct w; [|split; [exact H|split; [intros k'|]; reflexivity]].
  destruct (l_act_spec l k a H) as [H1 H2]. auto.
Qed.
Lemma call_ext S m m' k (p : proc S) s : same_map m m' -> call m k p s = call m' k p s.
Proof. intros H. unfold call. rewrite (H k). reflexivity. Qed.
Lemma act_ext m m' k a : same_map m m' -> same_map (act m k a) (act m' k a).
Proof. intros H k'. destruct a; cbn; unfold adel, aset; try rewrite (H k'); reflexivity. Qed.
Lemma ref_process_ext S m m' k (p : proc S) w s : same_map m m' ->
  same_map (fst (ref_process m k p w s)) (fst (ref_process m' k p w s)) /\
  snd (ref_process m k p w s) = snd (ref_process m' k p w s).
Proof.
  intros H. unfold ref_process. rewrite (call_ext S m m' k p s H). destruct (call m' k p s) as [a s']. cbn.
  split; [|reflexivity]. destruct w; [apply act_ext, H|exact H].
Qed.
Lemma ref_multi_ext S (l : list (bytes * proc S)) w : forall m m' s, same_map m m' ->
  same_map (fst (ref_multi m l w s)) (fst (ref_multi m' l w s)) /\ snd (ref_multi m l w s) = snd (ref_multi m' l w s).
Proof.
  induction l as [|[k p] l IH]; intros m m' s H; cbn [ref_multi]; [auto|].
  destruct (ref_process_ext S m m' k p w s H) as [E1 E2].
  destruct (ref_process m k p w s) as [m1 s1], (ref_process m' k p w s) as [m2 s2]. cbn in *. subst s2. apply IH, E1.
Qed.
Lemma l_multi_spec S (ps : list (bytes * proc S)) w : forall l s, l_sorted l ->
  let '(c, l', s') := l_multi l ps w s in
  c = SUCCESS /\ l_sorted l' /\ same_map (l_get l') (fst (ref_multi (l_get l) ps w s)) /\ s' = snd (ref_multi (l_get l) ps w s).
Proof.
  induction ps as [|[k p] ps IH]; intros l s H; cbn [l_multi ref_multi]; [split; [reflexivity|split; [exact H|split; [intros k'|]; reflexivity]]|].
  pose proof (l_process_spec S l k p w s H) as P. destruct (l_process l k p w s) as [[c l1] s1].
  destruct P as (_ & P1 & P2 & P3). destruct (ref_process (l_get l) k p w s) as [m1 s1']. cbn in P2, P3. subst s1'.
  pose proof (IH l1 s1 P1) as Q. destruct (l_multi l1 ps w s1) as [[c2 l2] s2]. destruct Q as (Q0 & Q1 & Q2 & Q3).
  destruct (ref_multi_ext S ps w _ _ s1 P2) as [E1 E2].
  split; [exact Q0|]. split; [exact Q1|]. split; [intros k'; rewrite (Q2 k'); apply E1|rewrite Q3; exact E2].
Qed.
Definition std_tree : dbm.
Proof.
  refine (mkDbm (list (bytes * bytes)) l_sorted l_get (@l_process) (@l_multi) (@l_first) _ _ _).
  - intros S d k p w s d' s' H E. pose proof (l_process_spec S d k p w s H) as P. rewrite E in P. tauto.
  - intros S d l w s d' s' H E. pose proof (l_multi_spec S l w d s H) as P. rewrite E in P. tauto.
  - intros S d p w s c d' s' H E. unfold l_first in E. destruct d as [|[k v] l].
    + inversion E; subst. split; [discriminate|]. intros _. split; [discriminate|auto].
    + destruct (on_full p k v s) as [a s1] eqn:F. inversion E; subst. split.
      * intros _. split; [destruct w; [apply l_act_spec, H|exact H]|].
        exists k, v. split; [cbn; rewrite beqb_refl; reflexivity|]. rewrite F. cbn [fst snd].
        split; [|reflexivity]. destruct w; [apply l_act_spec, H|intros k'; reflexivity].
      * intros Hn. specialize (Hn k). cbn in Hn. rewrite beqb_refl in Hn. discriminate.
Defined.

(** * Specification of the operations on a map *)
(** Applying updates in order. *)
Definition spec_update (m : amap) (k : bytes) (v : sview) : amap :=
  match v with VNull => adel m k | VAny => aset m k any_bytes | VStr d => aset m k d end.
Fixpoint spec_updates (m : amap) (l : list (bytes * sview)) : amap :=
  match l with [] => m | (k, v) :: l' => spec_updates (spec_update m k v) l' end.
(** The condition of a compare and exchange. *)
Definition expected_holds (m : amap) (k : bytes) (e : sview) : Prop :=
  match e with VNull => m k = None | VAny => m k <> None | VStr v => m k = Some v end.


(** The int64_t in a value, read as 8-byte big endian (fewer bytes are the low
    ones; bytes after the eighth are ignored). *)
Fixpoint be_value (v : bytes) (acc : N) : N := match v with [] => acc | c :: v' => be_value v' (acc * 256 + c) end.
Definition int64_of (z : Z) : Z := ((z + 9223372036854775808) mod 18446744073709551616 - 9223372036854775808)%Z.

Section C09.
  Variable D : dbm.
  Implicit Types d : d_st D.
  Notation V := (d_view D).
  (** The virtual function itself failed, with the code given. *)
  Definition process_fails {S} d k (p : proc S) w s (c : code) : Prop :=
    c <> SUCCESS /\ exists d' s', d_process D d k p w s = (c, d', s').
  Definition multi_fails {S} d (l : list (bytes * proc S)) w s (c : code) : Prop :=
    c <> SUCCESS /\ exists d' s', d_multi D d l w s = (c, d', s').

  Lemma proc_case S d k (p : proc S) w s c d' s' : d_ok D d -> d_process D d k p w s = (c, d', s') ->
    process_fails d k p w s c \/
    (c = SUCCESS /\ d_ok D d' /\
     exists a, call (V d) k p s = (a, s') /\ same_map (V d') (if w then act (V d) k a else V d)).
  Proof.
    intros H E. destruct (code_eqb_spec c SUCCESS) as [->|Hc]; [|left; split; [exact Hc|eauto]].
    right. destruct (d_process_ok D S d k p w s d' s' H E) as (O & M & ->). split; [reflexivity|]. split; [exact O|].
    unfold ref_process in *. destruct (call (V d) k p s) as [a s1]. exists a. auto.
  Qed.
  Lemma multi_case S d (l : list (bytes * proc S)) w s c d' s' : d_ok D d -> d_multi D d l w s = (c, d', s') ->
    multi_fails d l w s c \/
    (c = SUCCESS /\ d_ok D d' /\ same_map (V d') (fst (ref_multi (V d) l w s)) /\ s' = snd (ref_multi (V d) l w s)).
  Proof.
    intros H E. destruct (code_eqb_spec c SUCCESS) as [->|Hc]; [|left; split; [exact Hc|eauto]].
    right. split; [reflexivity|]. exact (d_multi_ok D S d l w s d' s' H E).
  Qed.
  Lemma both_fail c i : c <> SUCCESS -> both c i = c.
  Proof. intros H. unfold both. destruct (code_eqb_spec c SUCCESS); congruence. Qed.

  Ltac ceq := change (code_eqb SUCCESS SUCCESS) with true in *; change (code_eqb DUPLICATION_ERROR SUCCESS) with false in *;
    change (code_eqb NOT_FOUND_ERROR SUCCESS) with false in *; cbn iota in *.
  Ltac start H E :=
    match type of E with context [d_process D ?d ?k ?p ?w ?s] =>
      let Ep := fresh "Ep" in
      destruct (d_process D d k p w s) as [[?c0 ?d0] ?s0] eqn:Ep;
      let F := fresh "F" in
      destruct (proc_case _ d k p w s _ _ _ H Ep) as [F|(-> & ? & ?a & Hcall & Hview)];
      [left|right; unfold call in Hcall] end.

  (** Get gives the value of the record, or NOT_FOUND_ERROR, and changes nothing. *)
  Theorem C09_get : forall d k old c v d', d_ok D d -> op_get D d k old = (c, v, d') ->
    process_fails d k pr_get false (SUCCESS, old) c \/
    d_ok D d' /\ same_map (V d') (V d) /\
    match V d k with Some x => c = SUCCESS /\ v = x | None => c = NOT_FOUND_ERROR /\ v = old end.
  Proof.
    intros d k old c v d' H E. unfold op_get in E. start H E; destruct s0 as [i0 v0]; inversion E; subst; clear E.
    - rewrite both_fail by apply F. exact F.
    - split; [assumption|]. split; [exact Hview|]. destruct (V d k); inversion Hcall; subst; auto.
  Qed.
  (** Set stores the value; without the overwrite flag an existing record is
      kept and DUPLICATION_ERROR is reported.  The old value is reported if any. *)
  Theorem C09_set : forall d k value ow old c v d', d_ok D d -> op_set D d k value ow old = (c, v, d') ->
    process_fails d k (pr_set value ow) true (SUCCESS, old) c \/
    d_ok D d' /\
    match V d k with
    | Some x => v = x /\ (if ow then c = SUCCESS /\ same_map (V d') (aset (V d) k value)
                          else c = DUPLICATION_ERROR /\ same_map (V d') (V d))
    | None => v = old /\ c = SUCCESS /\ same_map (V d') (aset (V d) k value)
    end.
  Proof.
    intros d k value ow old c v d' H E. unfold op_set in E. start H E; destruct s0 as [i0 v0]; inversion E; subst; clear E.
    - rewrite both_fail by apply F. exact F.
    - split; [assumption|]. destruct (V d k); cbn in Hcall; [destruct ow|]; inversion Hcall; subst; auto.
  Qed.
  (** Remove removes the record and reports its value, or NOT_FOUND_ERROR. *)
  Theorem C09_remove : forall d k old c v d', d_ok D d -> op_remove D d k old = (c, v, d') ->
    process_fails d k pr_remove true (SUCCESS, old) c \/
    d_ok D d' /\
    match V d k with
    | Some x => c = SUCCESS /\ v = x /\ same_map (V d') (adel (V d) k)
    | None => c = NOT_FOUND_ERROR /\ v = old /\ same_map (V d') (V d)
    end.
  Proof.
    intros d k old c v d' H E. unfold op_remove in E. start H E; destruct s0 as [i0 v0]; inversion E; subst; clear E.
    - rewrite both_fail by apply F. exact F.
    - split; [assumption|]. destruct (V d k); inversion Hcall; subst; auto.
  Qed.
  (** Append puts the value after the existing one with the delimiter between. *)
  Theorem C09_append : forall d k value delim c d', d_ok D d -> op_append D d k value delim = (c, d') ->
    process_fails d k (pr_append value delim) true tt c \/
    d_ok D d' /\ c = SUCCESS /\
    same_map (V d') (aset (V d) k (match V d k with Some x => x ++ delim ++ value | None => value end)).
  Proof.
    intros d k value delim c d' H E. unfold op_append in E. start H E; inversion E; subst; clear E; [exact F|].
    split; [assumption|]. split; [reflexivity|]. destruct (V d k); inversion Hcall; subst; [|exact Hview].
    destruct delim; exact Hview.
  Qed.
  (** CompareExchange: if the expectation holds, the record becomes the desired
      one; if not, INFEASIBLE_ERROR and nothing changes.  The actual value is
      reported anyway. *)
  Theorem C09_compare_exchange : forall d k e w a0 f0 c a f d', d_ok D d ->
    op_cas D d k e w a0 f0 = (c, a, f, d') ->
    process_fails d k (pr_cas e w) (match w with VAny => false | _ => true end) (SUCCESS, a0, f0) c \/
    d_ok D d' /\ (f = true <-> V d k <> None) /\ a = (match V d k with Some x => x | None => [] end) /\
    ((expected_holds (V d) k e /\ c = SUCCESS /\
        same_map (V d') (match w with VNull => adel (V d) k | VAny => V d | VStr x => aset (V d) k x end)) \/
     (~ expected_holds (V d) k e /\ c = INFEASIBLE_ERROR /\ same_map (V d') (V d))).
  Proof.
    intros d k e w a0 f0 c a f d' H E. unfold op_cas in E. start H E; destruct s0 as [[i0 v0] f1]; inversion E; subst; clear E.
    - rewrite both_fail by apply F. exact F.
    - split; [assumption|]. unfold expected_holds.
      assert (AD : forall m, V d k = None -> same_map m (V d) -> same_map m (adel (V d) k)).
      { intros m Hn Hm k'. rewrite (Hm k'). unfold adel. destruct (beqb_spec k k'); [congruence|reflexivity]. }
      destruct (V d k) as [x|] eqn:Ek; cbn in Hcall.
      + destruct e as [| |b].
        * inversion Hcall; subst. split; [split; congruence|]. split; [reflexivity|]. right.
          split; [congruence|]. split; [reflexivity|]. destruct w; exact Hview.
        * inversion Hcall; subst. split; [split; congruence|]. split; [reflexivity|]. left.
          split; [congruence|]. split; [reflexivity|]. destruct w; exact Hview.
        * destruct (beqb_spec b x) as [->|Hb]; inversion Hcall; subst; (split; [split; congruence|]); (split; [reflexivity|]).
          -- left. split; [congruence|]. split; [reflexivity|]. destruct w; exact Hview.
          -- right. split; [congruence|]. split; [reflexivity|]. destruct w; exact Hview.
      + destruct e as [| |b]; inversion Hcall; subst; (split; [split; congruence|]); (split; [reflexivity|]).
        * left. split; [congruence|]. split; [reflexivity|]. destruct w; [apply (AD _ eq_refl); exact Hview|exact Hview|exact Hview].
        * right. split; [congruence|]. split; [reflexivity|]. destruct w; exact Hview.
        * right. split; [congruence|]. split; [reflexivity|]. destruct w; exact Hview.
  Qed.

  Lemma as_i64_of n : n < 18446744073709551616 -> as_i64 n = int64_of (Z.of_N n).
  Proof. intros H. unfold as_i64, int64_of. destruct (Z.leb_spec 9223372036854775808 (Z.of_N n)); lia. Qed.
  Lemma as_i64_u64 z : as_i64 (as_u64 z) = int64_of z.
  Proof. unfold as_i64, as_u64, int64_of. destruct (Z.leb_spec 9223372036854775808 (Z.of_N (Z.to_N (z mod 18446744073709551616)))); lia. Qed.
  Lemma be_value_read v : be_value v 0 = read_fix_bytes v.
  Proof.
    unfold read_fix_bytes. generalize 0. induction v as [|c v IH]; intros n; cbn [be_value fold_left]; [reflexivity|apply IH].
  Qed.
  Lemma be_to_int_value v : be_to_int v = be_value (firstn 8 v) 0.
  Proof.
    rewrite be_value_read. unfold be_to_int, read_fix. f_equal.
    destruct (Nat.le_gt_cases (length v) 8); [rewrite Nat.min_l by assumption; rewrite firstn_all, firstn_all2 by assumption; reflexivity|].
    rewrite Nat.min_r by lia. reflexivity.
  Qed.
  Lemma be_bound v : bytes_ok v -> be_to_int v < 18446744073709551616.
  Proof.
    intros H. rewrite be_to_int_value, be_value_read.
    assert (B : bytes_ok (firstn 8 v)) by (rewrite <- (firstn_skipn 8 v) in H; apply Forall_app in H; tauto).
    pose proof (read_fix_bytes_bound _ B) as L. eapply N.lt_le_trans; [exact L|].
    change 18446744073709551616 with (256 ^ 8). apply N.pow_le_mono_r; [lia|]. unfold blen. rewrite firstn_length. lia.
  Qed.
  Definition stores (w : bytes) (z : Z) : Prop := length w = 8%nat /\ int64_of (Z.of_N (be_value w 0)) = z.
  Lemma stored z : int64_of z = z -> stores (int_to_be (as_u64 z) 8) z.
  Proof.
    intros Hz. unfold stores, int_to_be. change (Nat.min 8 8) with 8%nat. split; [apply write_fix_length|].
    rewrite be_value_read, read_write_fix_bytes. change (256 ^ N.of_nat 8) with 18446744073709551616.
    unfold as_u64, int64_of in *. lia.
  Qed.
  Lemma int64_idem z : int64_of (int64_of z) = int64_of z.
  Proof. unfold int64_of. lia. Qed.
  (** The number a value stands for. *)
  Definition number_of (v : bytes) : Z := int64_of (Z.of_N (be_value (firstn 8 v) 0)).
  (** Increment adds to the number of the record, modulo 2^64 as an int64_t, or
      to the initial value if there is no record; with INT64MIN it only reports.
      The sum of the initial value and the increment must be an int64_t. *)
  Theorem C09_increment : forall d k inc cur0 init r, d_ok D d ->
    (forall v, V d k = Some v -> bytes_ok v) -> int64_of init = init ->
    op_inc D d k inc cur0 init = r ->
    (exists c cur d', r = Some (c, cur, d') /\ process_fails d k (pr_inc inc init) (negb (inc =? int64min)%Z) (cur0, false) c) \/
    (exists c, process_fails d k (pr_inc inc init) (negb (inc =? int64min)%Z) (cur0, false) c /\ r = None) \/
    (r = None /\ V d k = None /\ inc <> int64min /\ int64_of (init + inc) <> (init + inc)%Z) \/
    exists cur d', r = Some (SUCCESS, cur, d') /\ d_ok D d' /\
      if (inc =? int64min)%Z then
        same_map (V d') (V d) /\ cur = (match V d k with Some v => number_of v | None => init end)
      else
        cur = int64_of ((match V d k with Some v => number_of v | None => init end) + inc) /\
        exists w, stores w cur /\ same_map (V d') (aset (V d) k w).
  Proof.
    intros d k inc cur0 init r H Hb Hi E. unfold op_inc in E.
    destruct (d_process D d k (pr_inc inc init) (negb (inc =? int64min)%Z) (cur0, false)) as [[c0 d0] [n ub]] eqn:Ep.
    destruct (proc_case _ _ _ _ _ _ _ _ _ H Ep) as [F|(-> & O & a & Hcall & Hview)].
    { destruct ub; subst r; [right; left; eauto|left; eauto 6]. }
    right. right. unfold call in Hcall. destruct (V d k) as [v|] eqn:Ek; cbn in Hcall.
    - assert (BV : be_to_int v < 18446744073709551616) by (apply be_bound, Hb; reflexivity).
      destruct (Z.eqb_spec inc int64min) as [Ei|Ei]; inversion Hcall; subst; right; do 2 eexists; (split; [reflexivity|]); (split; [exact O|]).
      + split; [exact Hview|]. rewrite as_i64_of by exact BV. unfold number_of. rewrite be_to_int_value. reflexivity.
      + cbn [negb] in Hview. rewrite as_i64_u64 in *. split.
        * unfold number_of. rewrite be_to_int_value. unfold int64_of. lia.
        * eexists. split; [|exact Hview]. apply stored, int64_idem.
    - destruct (Z.eqb_spec inc int64min) as [Ei|Ei]; inversion Hcall; subst; clear Hcall.
      + right. do 2 eexists. split; [reflexivity|]. split; [exact O|]. split; [exact Hview|reflexivity].
      + cbn [orb negb] in *. destruct (in_i64 (init + inc)) eqn:R; cbn [negb].
        * assert (X : int64_of (init + inc) = (init + inc)%Z) by (unfold in_i64 in R; unfold int64_of; lia).
          right. do 2 eexists. split; [reflexivity|]. split; [exact O|]. split; [congruence|].
          eexists. split; [|exact Hview]. apply stored, X.
        * left. split; [reflexivity|]. split; [reflexivity|]. split; [exact Ei|]. unfold in_i64 in R. unfold int64_of. lia.
  Qed.

  (** * Operations on several records *)
  Lemma checks_state m : forall l n rest,
    ref_multi m (map (fun '(k, e) => (k, pr_check e)) l ++ rest) true n =
    ref_multi m rest true (n || existsb (fun '(k, e) =>
      match m k, e with
      | Some v, VNull => true | Some v, VAny => false | Some v, VStr x => negb (beqb x v)
      | None, VNull => false | None, _ => true end) l).
  Proof.
    induction l as [|[k e] l IH]; intros n rest; cbn [map app existsb]; [rewrite orb_false_r; reflexivity|].
    cbn [ref_multi]. unfold ref_process, call. destruct (m k) as [v|] eqn:Em; cbn [pr_check on_full on_empty act]; rewrite IH, orb_assoc; reflexivity.
  Qed.
  Lemma checks_hold m l :
    existsb (fun '(k, e) =>
      match m k, e with
      | Some v, VNull => true | Some v, VAny => false | Some v, VStr x => negb (beqb x v)
      | None, VNull => false | None, _ => true end) l = false <-> Forall (fun '(k, e) => expected_holds m k e) l.
  Proof.
    induction l as [|[k e] l IH]; cbn [existsb]; [split; [constructor|reflexivity]|].
    rewrite orb_false_iff, IH. split.
    - intros [H1 H2]. constructor; [|exact H2]. unfold expected_holds.
      destruct (m k) as [v|]; destruct e as [| |x]; try congruence.
      destruct (beqb_spec x v); [congruence|discriminate].
    - intros H. inversion H as [|? ? H1 H2]; subst. split; [|exact H2]. unfold expected_holds in H1.
      destruct (m k) as [v|]; destruct e as [| |x]; try congruence.
      inversion H1; subst. rewrite beqb_refl. reflexivity.
  Qed.
  Lemma exchange_noop m l : ref_multi m (map (fun '(k, v) => (k, pr_exchange v)) l) true true = (m, true).
  Proof.
    induction l as [|[k v] l IH]; cbn [map ref_multi]; [reflexivity|].
    unfold ref_process, call. destruct (m k); cbn; exact IH.
  Qed.
  Lemma exchange_all : forall l m, exists m', ref_multi m (map (fun '(k, v) => (k, pr_exchange v)) l) true false = (m', false) /\
    same_map m' (spec_updates m l).
  Proof.
    induction l as [|[k v] l IH]; intros m; cbn [map ref_multi spec_updates]; [exists m; split; [reflexivity|intros k; reflexivity]|].
    assert (E : exists m1, ref_process m k (pr_exchange v) true false = (m1, false) /\ same_map m1 (spec_update m k v)).
    { unfold ref_process, call, spec_update. destruct (m k) as [x|] eqn:Em; destruct v as [| |d]; cbn; eexists; (split; [reflexivity|]);
        intros k'; try reflexivity. unfold adel. destruct (beqb_spec k k'); [congruence|reflexivity]. }
    destruct E as (m1 & -> & E). destruct (IH m1) as (m2 & -> & E2). exists m2. split; [reflexivity|].
    intros k'. rewrite (E2 k'). clear - E.
    assert (X : forall l m m', same_map m m' -> same_map (spec_updates m l) (spec_updates m' l)).
    { clear. induction l as [|[k v] l IH]; intros m m' H; cbn [spec_updates]; [exact H|]. apply IH.
      intros k'. unfold spec_update. destruct v; unfold adel, aset; rewrite (H k'); reflexivity. }
    apply X, E.
  Qed.
  (** C10: CompareExchangeMulti: if every expectation holds in the state before
      the call, all updates are made, in order; else nothing changes and
      INFEASIBLE_ERROR is reported. *)
  Theorem C10_compare_exchange_multi : forall d exp des c d', d_ok D d -> op_cas_multi D d exp des = (c, d') ->
    multi_fails d (map (fun '(k, e) => (k, pr_check e)) exp ++ map (fun '(k, v) => (k, pr_exchange v)) des) true false c \/
    d_ok D d' /\
    ((Forall (fun '(k, e) => expected_holds (V d) k e) exp /\ c = SUCCESS /\ same_map (V d') (spec_updates (V d) des)) \/
     (~ Forall (fun '(k, e) => expected_holds (V d) k e) exp /\ c = INFEASIBLE_ERROR /\ same_map (V d') (V d))).
  Proof.
    intros d exp des c d' H E. unfold op_cas_multi in E. cbv zeta in E.
    set (l := map (fun '(k, e) => (k, pr_check e)) exp ++ map (fun '(k, v) => (k, pr_exchange v)) des) in *.
    destruct (d_multi D d l true false) as [[c0 d0] noop] eqn:Ep.
    destruct (multi_case _ _ _ _ _ _ _ _ H Ep) as [F|(-> & O & M & S0)].
    - left. destruct (code_eqb_spec c0 SUCCESS) as [->|Hc]; [destruct F; congruence|]. inversion E; subst. exact F.
    - right. cbn in E. inversion E; subst d0 c. split; [exact O|].
      unfold l in M, S0. rewrite checks_state in M, S0. cbn [orb] in M, S0.
      destruct (existsb _ exp) eqn:X.
      + rewrite exchange_noop in M, S0. cbn in M, S0. subst noop. right. split; [|auto].
        intros F. apply checks_hold in F. congruence.
      + destruct (exchange_all des (V d)) as (m' & Em & Es). rewrite Em in M, S0. cbn in M, S0. subst noop. left.
        split; [apply checks_hold, X|]. split; [reflexivity|]. intros k. rewrite (M k). apply Es.
  Qed.
  (** Rekey moves (or copies) the record of the old key to the new key. *)
  Theorem C09_rekey : forall d ok nk ow copying old c v d', d_ok D d -> op_rekey D d ok nk ow copying old = (c, v, d') ->
    multi_fails d ((if ow then [] else [(nk, pr_rk_check)]) ++ [(ok, pr_rk_remove copying); (nk, pr_rk_set)]) true (SUCCESS, []) c \/
    d_ok D d' /\
    match V d ok with
    | None => c = NOT_FOUND_ERROR /\ v = old /\ same_map (V d') (V d)
    | Some x =>
        if negb ow && match V d nk with Some _ => true | None => false end
        then c = DUPLICATION_ERROR /\ v = old /\ same_map (V d') (V d)
        else c = SUCCESS /\ v = x /\ same_map (V d') (aset (if copying then V d else adel (V d) ok) nk x)
    end.
  Proof.
    intros d ok nk ow copying old c v d' H E. unfold op_rekey in E. cbv zeta in E.
    set (l := (if ow then [] else [(nk, pr_rk_check)]) ++ [(ok, pr_rk_remove copying); (nk, pr_rk_set)]) in *.
    destruct (d_multi D d l true (SUCCESS, [])) as [[c0 d0] [i0 v0]] eqn:Ep.
    destruct (multi_case _ _ _ _ _ _ _ _ H Ep) as [F|(-> & O & M & S0)].
    - left. destruct (code_eqb_spec c0 SUCCESS) as [->|Hc]; [destruct F; congruence|]. inversion E; subst. exact F.
    - right. change (code_eqb SUCCESS SUCCESS) with true in E. cbn iota in E. inversion E; subst d0 c v. clear E. split; [exact O|].
      assert (R2 : forall m i b, i = SUCCESS ->
        ref_multi m [(ok, pr_rk_remove copying); (nk, pr_rk_set)] true (i, b) =
        match m ok with
        | None => (m, (NOT_FOUND_ERROR, b))
        | Some x => (aset (if copying then m else adel m ok) nk x, (SUCCESS, x))
        end).
      { intros m i b ->. cbn [ref_multi]. unfold ref_process, call. destruct (m ok) as [x|] eqn:Eo; cbn.
        - ceq. destruct copying; cbn; [destruct (m nk)|destruct (adel m ok nk)]; ceq; reflexivity.
        - destruct (m nk); ceq; reflexivity. }
      assert (R3 : forall m b,
        ref_multi m [(ok, pr_rk_remove copying); (nk, pr_rk_set)] true (DUPLICATION_ERROR, b) =
        match m ok with None => (m, (NOT_FOUND_ERROR, b)) | Some x => (m, (DUPLICATION_ERROR, b)) end).
      { intros m b. cbn [ref_multi]. unfold ref_process, call. destruct (m ok) as [x|] eqn:Eo; cbn; ceq; unfold act; destruct (m nk); cbn; ceq; reflexivity. }
      unfold l in M, S0. clear l Ep. destruct ow; cbn [app negb andb] in *.
      + rewrite R2 in M, S0 by reflexivity. destruct (V d ok) as [x|]; cbn in M, S0; inversion S0; subst; ceq; cbn; auto.
      + assert (R4 : forall rest m b, ref_multi m ((nk, pr_rk_check) :: rest) true (SUCCESS, b) =
          match m nk with Some _ => ref_multi m rest true (DUPLICATION_ERROR, b) | None => ref_multi m rest true (SUCCESS, b) end).
        { intros rest m b. cbn [ref_multi]. unfold ref_process, call. destruct (m nk); reflexivity. }
        rewrite R4 in M, S0. destruct (V d nk) as [y|] eqn:En.
        * rewrite R3 in M, S0. destruct (V d ok); cbn in M, S0; inversion S0; subst; ceq; cbn; auto.
        * rewrite R2 in M, S0 by reflexivity. destruct (V d ok) as [x|]; cbn in M, S0; inversion S0; subst; ceq; cbn; auto.
  Qed.
  (** PopFirst removes and reports one record, if there is any. *)
  Theorem C09_pop_first : forall d k0 v0 c k v d', d_ok D d -> op_pop D d k0 v0 = (c, (k, v), d') ->
    (c = SUCCESS -> d_ok D d' /\ V d k = Some v /\ same_map (V d') (adel (V d) k)) /\
    ((forall x, V d x = None) -> c <> SUCCESS /\ d' = d /\ k = k0 /\ v = v0).
  Proof.
    intros d k0 v0 c k v d' H E. unfold op_pop in E.
    destruct (d_first D d pr_pop true (k0, v0)) as [[c1 d1] s1] eqn:Ep. inversion E; subst. clear E.
    destruct (d_first_ok D _ _ _ _ _ _ _ _ H Ep) as [P1 P2]. split.
    - intros ->. destruct (P1 eq_refl) as (O & k1 & v1 & Hv & Hm & Hs). cbn in Hm, Hs. inversion Hs; subst. auto.
    - intros Hn. destruct (P2 Hn) as (N0 & -> & Hs). inversion Hs; subst. auto.
  Qed.
  (** PushLast stores the value under the first of the generated keys that has
      no record; no other record is changed.  Process must not report
      DUPLICATION_ERROR for a reason of its own (no database of /repo does). *)
  Theorem C09_push_last : forall fuel ts value d seq c k d', d_ok D d ->
    (forall d k s d1 s1, d_process D d k (pr_set value false) true s <> (DUPLICATION_ERROR, d1, s1)) ->
    op_push D fuel ts d value seq = Some (c, k, d') ->
    exists n, k = int_to_be (ts (seq + n)) 8 /\
      (forall j, j < n -> V d (int_to_be (ts (seq + j)) 8) <> None) /\
      ((exists d0, process_fails d0 k (pr_set value false) true (SUCCESS, []) c) \/
       V d k = None /\ c = SUCCESS /\ d_ok D d' /\ same_map (V d') (aset (V d) k value)).
  Proof.
    induction fuel as [|fuel IH]; intros ts value d seq c k d' H ND E; cbn [op_push] in E; [discriminate|]. cbv zeta in E.
    destruct (op_set D d (int_to_be (ts seq) 8) value false []) as [[c1 v1] d1] eqn:Es.
    destruct (C09_set _ _ _ _ _ _ _ _ H Es) as [F|[O B]].
    - assert (Hc : c1 <> DUPLICATION_ERROR) by (intros ->; destruct F as [_ (d2 & s2 & Ep)]; exact (ND _ _ _ _ _ Ep)).
      destruct (code_eqb_spec c1 DUPLICATION_ERROR) as [|_]; [contradiction|]. inversion E; subst.
      exists 0. rewrite N.add_0_r. split; [reflexivity|]. split; [intros; lia|]. left. eauto.
    - destruct (V d (int_to_be (ts seq) 8)) as [x|] eqn:Ex.
      + destruct B as (_ & -> & M). change (code_eqb DUPLICATION_ERROR DUPLICATION_ERROR) with true in E. cbn iota in E.
        destruct (IH _ _ _ _ _ _ _ O ND E) as (n & Hk & Hj & R). exists (n + 1).
        replace (seq + (n + 1)) with (seq + 1 + n) by lia. split; [exact Hk|]. split.
        * intros j Hj'. destruct (N.eq_dec j 0) as [->|]; [rewrite N.add_0_r; congruence|].
          rewrite <- (M _). replace (seq + j) with (seq + 1 + (j - 1)) by lia. apply Hj. lia.
        * destruct R as [R|(R1 & R2 & R3 & R4)]; [left; exact R|right].
          rewrite <- (M k). split; [exact R1|]. split; [exact R2|]. split; [exact R3|].
          intros k'. rewrite (R4 k'). unfold aset. rewrite (M k'). reflexivity.
      + destruct B as (_ & -> & M). change (code_eqb SUCCESS DUPLICATION_ERROR) with false in E. cbn iota in E.
        inversion E; subst. exists 0. rewrite N.add_0_r. split; [reflexivity|]. split; [intros; lia|]. right. auto.
  Qed.
  (** It ends as soon as a generated key is free. *)
  Theorem C09_push_last_ends : forall n ts value d seq, d_ok D d ->
    (forall d k s, d_ok D d -> exists d1 s1, d_process D d k (pr_set value false) true s = (SUCCESS, d1, s1)) ->
    V d (int_to_be (ts (seq + N.of_nat n)) 8) = None ->
    op_push D (S n) ts d value seq <> None.
  Proof.
    induction n as [|n IH]; intros ts value d seq H Ok Hf.
    - cbn [op_push]. cbv zeta. destruct (op_set D d (int_to_be (ts seq) 8) value false []) as [[c1 v1] d1] eqn:Es.
      destruct (C09_set _ _ _ _ _ _ _ _ H Es) as [[F1 (d2 & s2 & Ep)]|[O B]].
      + destruct (Ok d (int_to_be (ts seq) 8) (SUCCESS, []) H) as (d3 & s3 & Ep'). pose proof (eq_trans (eq_sym Ep) Ep') as X. inversion X. contradiction.
      + rewrite N.add_0_r in Hf. rewrite Hf in B. destruct B as (_ & -> & _). discriminate.
    - remember (S n) as n'. cbn [op_push]. cbv zeta.
      destruct (op_set D d (int_to_be (ts seq) 8) value false []) as [[c1 v1] d1] eqn:Es.
      destruct (C09_set _ _ _ _ _ _ _ _ H Es) as [[F1 (d2 & s2 & Ep)]|[O B]].
      { destruct (Ok d (int_to_be (ts seq) 8) (SUCCESS, []) H) as (d3 & s3 & Ep'). pose proof (eq_trans (eq_sym Ep) Ep') as X. inversion X. contradiction. }
      destruct (V d (int_to_be (ts seq) 8)) as [x|].
      + destruct B as (_ & -> & M). change (code_eqb DUPLICATION_ERROR DUPLICATION_ERROR) with true. cbn iota. subst n'.
        apply IH; [exact O|exact Ok|]. rewrite (M _). replace (seq + 1 + N.of_nat n) with (seq + N.of_nat (S n)) by lia. exact Hf.
      + destruct B as (_ & -> & _). discriminate.
  Qed.

  (** * SetMulti, RemoveMulti, AppendMulti and GetMulti: one record after another.
      Stated when Process succeeds. *)
  Definition succeeds : Prop := forall S d k (p : proc S) w s, d_ok D d -> exists d' s', d_process D d k p w s = (SUCCESS, d', s').
  Fixpoint spec_sets (m : amap) (rs : list (bytes * bytes)) (ow : bool) : amap :=
    match rs with
    | [] => m
    | (k, v) :: rs' => spec_sets (if ow then aset m k v else match m k with Some _ => m | None => aset m k v end) rs' ow
    end.
  Fixpoint spec_removes (m : amap) (ks : list bytes) : amap :=
    match ks with [] => m | k :: ks' => spec_removes (adel m k) ks' end.
  Fixpoint spec_appends (m : amap) (rs : list (bytes * bytes)) (delim : bytes) : amap :=
    match rs with
    | [] => m
    | (k, v) :: rs' => spec_appends (aset m k (match m k with Some x => x ++ delim ++ v | None => v end)) rs' delim
    end.
  Lemma spec_sets_ext ow rs : forall m m', same_map m m' -> same_map (spec_sets m rs ow) (spec_sets m' rs ow).
  Proof.
    induction rs as [|[k v] rs IH]; intros m m' H; cbn [spec_sets]; [exact H|]. apply IH. intros k'.
    rewrite (H k). destruct ow; [|destruct (m' k)]; unfold aset; rewrite ?(H k'); reflexivity.
  Qed.
  Lemma spec_removes_ext ks : forall m m', same_map m m' -> same_map (spec_removes m ks) (spec_removes m' ks).
  Proof.
    induction ks as [|k ks IH]; intros m m' H; cbn [spec_removes]; [exact H|]. apply IH. intros k'. unfold adel. rewrite (H k'). reflexivity.
  Qed.
  Lemma spec_appends_ext delim rs : forall m m', same_map m m' -> same_map (spec_appends m rs delim) (spec_appends m' rs delim).
  Proof.
    induction rs as [|[k v] rs IH]; intros m m' H; cbn [spec_appends]; [exact H|]. apply IH. intros k'.
    unfold aset. rewrite (H k), (H k'). reflexivity.
  Qed.
  Lemma not_fails S d k (p : proc S) w s c : succeeds -> d_ok D d -> ~ process_fails d k p w s c.
  Proof. intros Ok H [F (d1 & s1 & E)]. destruct (Ok S d k p w s H) as (d2 & s2 & E2). pose proof (eq_trans (eq_sym E) E2) as X. inversion X. contradiction. Qed.
  (** SetMulti sets all, or skips the existing ones and reports DUPLICATION_ERROR. *)
  Theorem C09_set_multi : succeeds -> forall rs d ow c d', d_ok D d -> op_set_multi D d rs ow SUCCESS = (c, d') ->
    d_ok D d' /\ same_map (V d') (spec_sets (V d) rs ow) /\
    (ow = true -> c = SUCCESS) /\ (c = SUCCESS \/ c = DUPLICATION_ERROR) /\
    (c = SUCCESS -> ow = false -> Forall (fun r => V d (fst r) = None) rs).
  Proof.
    intros Ok.
    assert (G : forall rs d ow st c d', d_ok D d -> st = SUCCESS \/ st = DUPLICATION_ERROR -> op_set_multi D d rs ow st = (c, d') ->
      d_ok D d' /\ same_map (V d') (spec_sets (V d) rs ow) /\ (ow = true -> c = st) /\ (c = SUCCESS \/ c = DUPLICATION_ERROR) /\
      (c = SUCCESS -> st = SUCCESS /\ (ow = false -> Forall (fun r => V d (fst r) = None) rs))).
    { induction rs as [|[k v] rs IH]; intros d ow st c d' H Hst E; cbn [op_set_multi spec_sets] in *.
      - inversion E; subst. split; [exact H|]. split; [intros k; reflexivity|]. auto.
      - destruct (op_set D d k v ow []) as [[c1 v1] d1] eqn:Es.
        destruct (C09_set _ _ _ _ _ _ _ _ H Es) as [F|[O B]]; [destruct (not_fails _ _ _ _ _ _ _ Ok H F)|].
        assert (Hb : both st c1 = SUCCESS \/ both st c1 = DUPLICATION_ERROR).
        { unfold both. destruct Hst as [-> | ->]; ceq; [|auto].
          destruct (V d k) as [x|]; [destruct B as [_ B]; destruct ow; destruct B as [-> _]; auto|destruct B as (_ & -> & _); auto]. }
        assert (E' : op_set_multi D d1 rs ow (both st c1) = (c, d')).
        { destruct Hb as [Hb|Hb]; rewrite Hb in E |- *; exact E. }
        destruct (IH d1 ow (both st c1) c d' O Hb E') as (I1 & I2 & I3 & I4 & I5).
        assert (M : same_map (V d1) (if ow then aset (V d) k v else match V d k with Some _ => V d | None => aset (V d) k v end)).
        { destruct (V d k) as [x|]; [destruct B as [_ B]; destruct ow; apply B|]. destruct B as (_ & _ & M). destruct ow; exact M. }
        split; [exact I1|]. split; [intros k'; rewrite (I2 k'); apply spec_sets_ext, M|]. split; [|split; [exact I4|]].
        + intros Ho. rewrite (I3 Ho). subst ow. unfold both. destruct Hst as [-> | ->]; ceq; [|reflexivity].
          destruct (V d k) as [x|]; destruct B as [_ B]; apply B.
        + intros Hc. destruct (I5 Hc) as [J1 J2]. unfold both in J1. destruct Hst as [-> | ->]; ceq; [|discriminate].
          split; [reflexivity|]. intros Ho. subst ow. subst c1. specialize (J2 eq_refl).
          destruct (V d k) as [x|] eqn:Ek; [destruct B as (_ & B & _); discriminate|]. constructor; [exact Ek|].
          apply Forall_forall. intros r Hr. rewrite Forall_forall in J2. specialize (J2 r Hr). rewrite (M _) in J2.
          unfold aset in J2. destruct (beqb k (fst r)); [discriminate|exact J2]. }
    intros rs d ow c d' H E. destruct (G rs d ow SUCCESS c d' H (or_introl eq_refl) E) as (I1 & I2 & I3 & I4 & I5).
    split; [exact I1|]. split; [exact I2|]. split; [exact I3|]. split; [exact I4|]. intros Hc. apply I5, Hc.
  Qed.
  (** RemoveMulti removes all; NOT_FOUND_ERROR if any is missing when its turn comes. *)
  Theorem C09_remove_multi : succeeds -> forall ks d c d', d_ok D d -> op_remove_multi D d ks SUCCESS = (c, d') ->
    d_ok D d' /\ same_map (V d') (spec_removes (V d) ks) /\ (c = SUCCESS \/ c = NOT_FOUND_ERROR) /\
    (c = SUCCESS <-> NoDup ks /\ Forall (fun k => V d k <> None) ks).
  Proof.
    intros Ok.
    assert (G : forall ks d st c d', d_ok D d -> st = SUCCESS \/ st = NOT_FOUND_ERROR -> op_remove_multi D d ks st = (c, d') ->
      d_ok D d' /\ same_map (V d') (spec_removes (V d) ks) /\ (c = SUCCESS \/ c = NOT_FOUND_ERROR) /\
      (c = SUCCESS <-> st = SUCCESS /\ NoDup ks /\ Forall (fun k => V d k <> None) ks)).
    { induction ks as [|k ks IH]; intros d st c d' H Hst E; cbn [op_remove_multi spec_removes] in *.
      - inversion E; subst. split; [exact H|]. split; [intros k; reflexivity|]. split; [exact Hst|].
        split; [intros ->; repeat constructor|tauto].
      - destruct (op_remove D d k []) as [[c1 v1] d1] eqn:Es.
        destruct (C09_remove _ _ _ _ _ _ H Es) as [F|[O B]]; [destruct (not_fails _ _ _ _ _ _ _ Ok H F)|].
        assert (Hb : both st c1 = SUCCESS \/ both st c1 = NOT_FOUND_ERROR).
        { unfold both. destruct Hst as [-> | ->]; ceq; [|auto]. destruct (V d k) as [x|]; destruct B as [-> _]; auto. }
        assert (E' : op_remove_multi D d1 ks (both st c1) = (c, d')).
        { destruct Hb as [Hb|Hb]; rewrite Hb in E |- *; exact E. }
        destruct (IH d1 (both st c1) c d' O Hb E') as (I1 & I2 & I3 & I4).
        assert (M : same_map (V d1) (adel (V d) k)).
        { destruct (V d k) as [x|] eqn:Ek; [apply B|]. destruct B as (_ & _ & M). intros k'. rewrite (M k'). unfold adel.
          destruct (beqb_spec k k'); [congruence|reflexivity]. }
        split; [exact I1|]. split; [intros k'; rewrite (I2 k'); apply spec_removes_ext, M|]. split; [exact I3|].
        rewrite I4. unfold both. split.
        + intros (J1 & J2 & J3). destruct Hst as [-> | ->]; ceq; [|discriminate]. subst c1.
          split; [reflexivity|]. destruct (V d k) as [x|] eqn:Ek; [|destruct B as [B _]; discriminate].
          rewrite Forall_forall in J3. split.
          * constructor; [|exact J2]. intros Hin. apply (J3 k Hin). rewrite (M k). apply adel_eq.
          * constructor; [congruence|]. apply Forall_forall. intros y Hy Hn. apply (J3 y Hy). rewrite (M y). unfold adel.
            destruct (beqb k y); [reflexivity|exact Hn].
        + intros (-> & J2 & J3). ceq. inversion J2 as [|? ? J4 J5]; subst. inversion J3 as [|? ? J6 J7]; subst.
          split; [destruct (V d k); [apply B|congruence]|]. split; [exact J5|].
          apply Forall_forall. intros y Hy. rewrite Forall_forall in J7. rewrite (M y). rewrite adel_neq by (intros ->; contradiction).
          apply J7, Hy. }
    intros ks d c d' H E. destruct (G ks d SUCCESS c d' H (or_introl eq_refl) E) as (I1 & I2 & I3 & I4).
    split; [exact I1|]. split; [exact I2|]. split; [exact I3|]. rewrite I4. tauto.
  Qed.
  (** AppendMulti appends to all. *)
  Theorem C09_append_multi : succeeds -> forall rs d delim c d', d_ok D d -> op_append_multi D d rs delim SUCCESS = (c, d') ->
    d_ok D d' /\ c = SUCCESS /\ same_map (V d') (spec_appends (V d) rs delim).
  Proof.
    intros Ok. induction rs as [|[k v] rs IH]; intros d delim c d' H E; cbn [op_append_multi spec_appends] in *.
    - inversion E; subst. split; [exact H|]. split; [reflexivity|intros k; reflexivity].
    - destruct (op_append D d k v delim) as [c1 d1] eqn:Es.
      destruct (C09_append _ _ _ _ _ _ H Es) as [F|(O & -> & M)]; [destruct (not_fails _ _ _ _ _ _ _ Ok H F)|].
      unfold both in E. ceq. destruct (IH d1 delim c d' O E) as (I1 & I2 & I3). split; [exact I1|]. split; [exact I2|].
      intros k'. rewrite (I3 k'). apply spec_appends_ext, M.
  Qed.
  (** GetMulti reports all the existing records; SUCCESS if none is missing. *)
  Theorem C09_get_multi : succeeds -> forall ks d c recs d', d_ok D d -> op_get_multi D d ks [] SUCCESS = (c, recs, d') ->
    d_ok D d' /\ same_map (V d') (V d) /\
    (forall k v, In (k, v) recs <-> In k ks /\ V d k = Some v) /\ NoDup (map fst recs) /\
    c = (if forallb (fun k => match V d k with Some _ => true | None => false end) ks then SUCCESS else NOT_FOUND_ERROR).
  Proof.
    intros Ok.
    assert (G : forall ks d st recs0 c recs d', d_ok D d -> st = SUCCESS \/ st = NOT_FOUND_ERROR ->
      (forall k v, In (k, v) recs0 -> V d k = Some v) -> NoDup (map fst recs0) ->
      op_get_multi D d ks recs0 st = (c, recs, d') ->
      d_ok D d' /\ same_map (V d') (V d) /\
      (forall k v, In (k, v) recs <-> In (k, v) recs0 \/ (In k ks /\ V d k = Some v)) /\ NoDup (map fst recs) /\
      c = (if forallb (fun k => match V d k with Some _ => true | None => false end) ks then st else NOT_FOUND_ERROR)).
    { induction ks as [|k ks IH]; intros d st recs0 c recs d' H Hst Hr Hn E; cbn [op_get_multi forallb] in *.
      - inversion E; subst. split; [exact H|]. split; [intros k; reflexivity|]. split; [|split; [exact Hn|reflexivity]].
        intros k v. cbn [In]. tauto.
      - destruct (op_get D d k []) as [[c1 v1] d1] eqn:Es.
        destruct (C09_get _ _ _ _ _ _ H Es) as [F|(O & M & B)]; [destruct (not_fails _ _ _ _ _ _ _ Ok H F)|].
        assert (XF : forallb (fun k => match V d1 k with Some _ => true | None => false end) ks =
                     forallb (fun k => match V d k with Some _ => true | None => false end) ks).
        { clear - M. induction ks as [|a ks IHk]; cbn; [reflexivity|]. rewrite (M a), IHk. reflexivity. }
        destruct (V d k) as [x|] eqn:Ek; destruct B as [-> Hv].
        + subst v1. change (code_eqb SUCCESS SUCCESS) with true in E. cbn iota in E.
          set (recs1 := if existsb (fun r => beqb (fst r) k) recs0 then recs0 else (k, x) :: recs0) in *.
          assert (R1 : forall a b, In (a, b) recs1 <-> In (a, b) recs0 \/ (a = k /\ b = x)).
          { intros a b. unfold recs1. destruct (existsb (fun r => beqb (fst r) k) recs0) eqn:X.
            - split; [tauto|]. intros [I|[-> ->]]; [exact I|]. apply existsb_exists in X. destruct X as ([a b] & Hin & Hb).
              apply beqb_eq in Hb. cbn in Hb. subst a. rewrite (Hr _ _ Hin) in Ek. inversion Ek; subst. exact Hin.
            - cbn [In]. split; [intros [I|I]; [inversion I; auto|auto]|intros [I|[-> ->]]; auto]. }
          assert (N1 : NoDup (map fst recs1)).
          { unfold recs1. destruct (existsb (fun r => beqb (fst r) k) recs0) eqn:X; [exact Hn|]. cbn [map]. constructor; [|exact Hn].
            intros Hin. apply in_map_iff in Hin. destruct Hin as (r & Hf & Hin).
            assert (Y : existsb (fun r => beqb (fst r) k) recs0 = true) by (apply existsb_exists; exists r; split; [exact Hin|apply beqb_eq; exact Hf]).
            congruence. }
          destruct (IH d1 st recs1 c recs d' O Hst) as (I1 & I2 & I3 & I4 & I5); [|exact N1|exact E|].
          { intros a b Hin. rewrite (M a). apply R1 in Hin. destruct Hin as [Hin|[-> ->]]; [apply Hr, Hin|exact Ek]. }
          split; [exact I1|]. split; [intros a; rewrite (I2 a); apply M|]. split; [|split; [exact I4|rewrite I5, XF; reflexivity]].
          intros a b. rewrite (I3 a b), (R1 a b), (M a). cbn [In]. split.
          * intros [[I|[-> ->]]|I]; [auto|right; auto|tauto].
          * intros [I|[[->|I] J]]; [auto|rewrite Ek in J; inversion J; auto|auto].
        + change (code_eqb NOT_FOUND_ERROR SUCCESS) with false in E. cbn iota in E.
          assert (Hb : both st NOT_FOUND_ERROR = NOT_FOUND_ERROR) by (unfold both; destruct Hst as [-> | ->]; reflexivity).
          rewrite Hb in E.
          destruct (IH d1 NOT_FOUND_ERROR recs0 c recs d' O (or_intror eq_refl)) as (I1 & I2 & I3 & I4 & I5); [|exact Hn|exact E|].
          { intros a b Hin. rewrite (M a). apply Hr, Hin. }
          split; [exact I1|]. split; [intros a; rewrite (I2 a); apply M|]. split; [|split; [exact I4|]].
          * intros a b. rewrite (I3 a b), (M a). cbn [In]. split; [tauto|]. intros [I|[[->|I] J]]; [auto|congruence|auto].
          * rewrite I5. clear. repeat match goal with |- context [forallb ?f ks] => destruct (forallb f ks) end; reflexivity. }
    intros ks d c recs d' H E. destruct (G ks d SUCCESS [] c recs d' H (or_introl eq_refl)) as (I1 & I2 & I3 & I4 & I5).
    - intros ? ? [].
    - constructor.
    - exact E.
    - split; [exact I1|]. split; [exact I2|]. split; [|split; [exact I4|exact I5]].
      intros k v. rewrite (I3 k v). cbn [In]. tauto.
  Qed.
End C09.

(** * Concrete cases on the sorted list database *)
(** "a" and "b" exchanged in one call; a rekey onto an existing key; a counter. *)
Example C10_case :
  let d := [([97], [49]); ([98], [50])] in
  op_cas_multi std_tree d [([97], VStr [49]); ([98], VAny); ([99], VNull)] [([97], VStr [50]); ([98], VNull); ([97], VStr [51])]
    = (SUCCESS, [([97], [51])]) /\
  op_cas_multi std_tree d [([97], VStr [49]); ([98], VNull)] [([97], VNull)] = (INFEASIBLE_ERROR, d).
Proof. vm_compute. split; reflexivity. Qed.
Example C09_case :
  let d := [([97], [49]); ([98], [50])] in
  op_rekey std_tree d [97] [98] true false [] = (SUCCESS, [49], [([98], [49])]) /\
  op_rekey std_tree d [97] [98] false false [] = (DUPLICATION_ERROR, [], d) /\
  op_rekey std_tree d [97] [97] true false [] = (SUCCESS, [49], d) /\
  op_pop std_tree d [] [] = (SUCCESS, ([97], [49]), [([98], [50])]) /\
  op_inc std_tree d [99] 5 0 (-7) = Some (SUCCESS, (-2)%Z, [([97], [49]); ([98], [50]); ([99], [255; 255; 255; 255; 255; 255; 255; 254])]) /\
  op_inc std_tree [] [99] 1 0 9223372036854775807 = None.
Proof. vm_compute. repeat split. Qed.
Example C09_succeeds : succeeds std_tree.
Proof.
  intros S d k p w s H. cbn. unfold l_process.
  destruct (match l_get d k with Some v => on_full p k v s | None => on_empty p k s end) as [a s']. eauto.
Qed.

Print Assumptions std_tree.
Print Assumptions C09_get.
Print Assumptions C09_set.
Print Assumptions C09_remove.
Print Assumptions C09_append.
Print Assumptions C09_compare_exchange.
Print Assumptions C09_increment.
Print Assumptions C10_compare_exchange_multi.
Print Assumptions C09_rekey.
Print Assumptions C09_pop_first.
Print Assumptions C09_push_last.
Print Assumptions C09_push_last_ends.
Print Assumptions C09_set_multi.
Print Assumptions C09_remove_multi.
Print Assumptions C09_append_multi.
Print Assumptions C09_get_multi.
