(** C52: AsyncDBM.  Source: /repo/tkrzw_dbm_async.h and /repo/tkrzw_dbm_async.cc. *)
From Coq Require Import List NArith ZArith Bool Arith Lia Sorting.Permutation Ascii String.
Import ListNotations.
From Verif Require Import Bytes StatusModel DbmModel DbmProps TaskModel TaskProps AsyncModel AsyncProofs.
Local Open Scope list_scope.
Local Open Scope nat_scope.

(** * Specification: the same calls on the database itself, one after the other *)
Section spec.
  Variable D : dbm.
  Fixpoint run_all (cs : list (acall (d_st D) bytes)) (d : d_st D) : option (list res * d_st D) :=
    match cs with
    | [] => Some ([], d)
    | c :: cs' => match do_call D c d with
                  | None => None
                  | Some (r, d1) => match run_all cs' d1 with None => None | Some (rs, d2) => Some (r :: rs, d2) end
                  end
    end.
  (** What the postprocessor is told: the name and the status of every call that tells. *)
  Fixpoint told (po : option nat) (cs : list (acall (d_st D) bytes)) (rs : list res) : list (nat * bytes * code) :=
    match cs, rs, po with
    | c :: cs', r :: rs', Some p => match post_name D c with Some n => (p, n, res_code r) :: told po cs' rs' | None => told po cs' rs' end
    | _, _, _ => []
    end.
  Lemma run_snoc cs : forall d rs d1 c, run_all cs d = Some (rs, d1) -> run_all (cs ++ [c]) d = match do_call D c d1 with None => None | Some (r, d2) => Some (rs ++ [r], d2) end.
  Proof.
    induction cs as [|x cs IH]; intros d rs d1 c H; cbn in *.
    - injection H as <- <-. destruct (do_call D c d) as [[r d2]|]; reflexivity.
    - destruct (do_call D x d) as [[r d2]|]; [|discriminate]. destruct (run_all cs d2) as [[rs' d3]|] eqn:E; [|discriminate]. injection H as <- <-. rewrite (IH _ _ _ c E). destruct (do_call D c d3) as [[r' d4]|]; reflexivity.
  Qed.
  Lemma run_length cs : forall d rs d1, run_all cs d = Some (rs, d1) -> length rs = length cs.
  Proof.
    induction cs as [|x cs IH]; intros d rs d1 H; cbn in *; [injection H as <- <-; reflexivity|]. destruct (do_call D x d) as [[r d2]|]; [|discriminate]. destruct (run_all cs d2) as [[rs' d3]|] eqn:E; [|discriminate].
    injection H as <- <-. cbn. f_equal. eapply IH, E.
  Qed.
  Lemma told_snoc po cs : forall rs c r, length rs = length cs -> told po (cs ++ [c]) (rs ++ [r]) = told po cs rs ++ told po [c] [r].
  Proof.
    induction cs as [|x cs IH]; intros [|y rs] c r H; try discriminate; [reflexivity|]. cbn [app told]. destruct po as [p|]; [|reflexivity]. destruct (post_name D x); rewrite IH by (cbn in H; lia); reflexivity.
  Qed.
End spec.

(** * Steps *)
Lemma step_added nw t s s' : step nw t s s' ->
  (added s' = added s /\ forall u k, pcs s' u = CPush k -> pcs s u = CPush k) \/
  (exists k, pcs s t = CPush k /\ added s' = added s ++ [k] /\ forall u j, pcs s' u = CPush j -> pcs s u = CPush j /\ u <> t).
Proof.
  intros H. inversion H; subst; cbn [added pcs].
  all: try (left; split; [reflexivity|]; intros v j; unfold upd, wake_all; repeat match goal with |- context [Nat.eqb ?x ?y] => destruct (Nat.eqb x y) end; try discriminate; try (intros Hj; exact Hj); destruct (f v); (discriminate || congruence)).
  right. exists k. split; [assumption|]. split; [reflexivity|]. intros v j. unfold upd. destruct (Nat.eqb_spec v t); [discriminate|]. auto.
Qed.
Section inv.
  Variable D : dbm.
  Variable nw : nat.
  Variable d0 : d_st D.
  Record ainv (a : asys D) : Prop := mkAinv {
    v_reach : reach nw (a_q D a);
    v_added : NoDup (added (a_q D a));
    v_next : forall k, In k (added (a_q D a)) -> k < a_next D a;
    v_push : forall t k, pcs (a_q D a) t = CPush k -> k < a_next D a /\ ~ In k (added (a_q D a)) /\ forall u, pcs (a_q D a) u = CPush k -> u = t;
    v_calls : forall k, k < a_next D a -> exists t b, a_task D a k = Some t /\ a_call D a k = Some b /\ r_call (v_look (t_vec D t)) (t_body D t) = Some (norm b) /\ t_post D t = a_post D a;
    v_run : a_ub D a = false -> exists cs rs, map (a_call D a) (executed (a_q D a)) = map Some cs /\ run_all D cs d0 = Some (rs, a_db D a) /\
       map (a_res D a) (executed (a_q D a)) = map Some rs /\ (forall k, ~ In k (executed (a_q D a)) -> a_res D a k = None) /\ a_notes D a = told D (a_post D a) cs rs;
    v_ub : a_ub D a = true -> exists ks k rest cs rs d b, executed (a_q D a) = ks ++ k :: rest /\ map (a_call D a) ks = map Some cs /\ run_all D cs d0 = Some (rs, d) /\ a_call D a k = Some b /\ do_call D b d = None }.
  Lemma executed_added s : reach nw s -> forall k, In k (executed s) -> In k (added s).
  Proof. intros R k H. eapply Permutation_in; [symmetry; apply C36_exactly_once, R|]. apply in_or_app. auto. Qed.
  Lemma executed_nodup s : reach nw s -> NoDup (added s) -> NoDup (executed s).
  Proof. intros R H. assert (X := Permutation_NoDup (C36_exactly_once nw s R) H). revert X. generalize (in_progress (pcs s) nw ++ q s). induction (executed s) as [|x l IH]; intros r X; [constructor|]. inversion X; subst. constructor; [intros Y; apply H2, in_or_app; auto|eapply IH; eauto]. Qed.
  (** The queue part of a step. *)
  Lemma queue_step t s s' n : step nw t s s' -> reach nw s -> NoDup (added s) -> (forall k, In k (added s) -> k < n) ->
    (forall t k, pcs s t = CPush k -> k < n /\ ~ In k (added s) /\ forall u, pcs s u = CPush k -> u = t) ->
    reach nw s' /\ NoDup (added s') /\ (forall k, In k (added s') -> k < n) /\
    (forall t k, pcs s' t = CPush k -> k < n /\ ~ In k (added s') /\ forall u, pcs s' u = CPush k -> u = t).
  Proof.
    intros H R N L P. split; [eapply r_step; eassumption|]. destruct (step_added _ _ _ _ H) as [[E K]|(k & Ek & E & K)]; rewrite E.
    - split; [exact N|]. split; [exact L|]. intros u j Hj. destruct (P u j (K _ _ Hj)) as (A & B & C). split; [exact A|]. split; [exact B|]. intros w Hw. apply C, K, Hw.
    - destruct (P t k Ek) as (A & B & C). split.
      { apply (Permutation_NoDup (l := k :: added s)); [apply Permutation_cons_append|]. constructor; assumption. }
      split; [intros j Hj; apply in_app_or in Hj; destruct Hj as [Hj|[<-|[]]]; auto|].
      intros u j Hj. destruct (K _ _ Hj) as [Hj1 Hj2]. destruct (P u j Hj1) as (A' & B' & C'). split; [exact A'|]. split.
      + intros Hin. apply in_app_or in Hin. destruct Hin as [Hin|[<-|[]]]; [exact (B' Hin)|]. apply Hj2, C, Hj1.
      + intros w Hw. apply C', K, Hw.
  Qed.
  Lemma put_same {A} (f : nat -> option A) k x : put f k x k = Some x.
  Proof. unfold put. rewrite Nat.eqb_refl. reflexivity. Qed.
  Lemma put_other {A} (f : nat -> option A) k x i : i <> k -> put f k x i = f i.
  Proof. unfold put. intros H. destruct (Nat.eqb_spec i k); [contradiction|reflexivity]. Qed.
  Lemma map_put {A} (f : nat -> option A) k x l : ~ In k l -> map (put f k x) l = map f l.
  Proof. intros H. apply map_ext_in. intros i Hi. apply put_other. intros ->. contradiction. Qed.
  Lemma step_inv a a' : ainv a -> astep D nw a a' -> ainv a'.
  Proof.
    intros [R N L P C U B] H. destruct H as [t a s' H E|t a s' k H E].
    - destruct (queue_step _ _ _ _ H R N L P) as (R' & N' & L' & P'). constructor; cbn; auto; rewrite E; assumption.
    - destruct (queue_step _ _ _ _ H R N L P) as (R' & N' & L' & P').
      assert (HI : In k (added s')) by (apply (executed_added s' R'); rewrite E; apply in_or_app; right; left; reflexivity).
      assert (HN : ~ In k (executed (a_q D a))). { assert (X := executed_nodup s' R' N'). rewrite E in X. apply NoDup_remove in X. rewrite app_nil_r in X. apply X. }
      destruct (C k (L' k HI)) as (tk & b & T1 & T2 & T3 & T4).
      unfold do_task. destruct (a_ub D a) eqn:UB.
      { constructor; cbn; auto; [discriminate|]. intros _. destruct (B eq_refl) as (ks & j & rest & cs & rs & d & c & X1 & X2). exists ks, j, (rest ++ [k]), cs, rs, d, c. rewrite E, X1, <- app_assoc. auto. }
      rewrite T1, T3, norm_do. destruct (U eq_refl) as (cs & rs & U1 & U2 & U3 & U4 & U5). clear U B.
      destruct (do_call D b (a_db D a)) as [[r d']|] eqn:DC.
      2: { constructor; cbn; auto; [discriminate|]. intros _. exists (executed (a_q D a)), k, [], cs, rs, (a_db D a), b. auto. }
      assert (PN : post_name D (t_body D tk) = post_name D b) by (rewrite <- (norm_name D b); symmetry; eapply name_call, T3). rewrite T4, PN.
      assert (G : forall notes, notes = told D (a_post D a) (cs ++ [b]) (rs ++ [r]) -> ainv (mkA D s' d' false (a_task D a) (put (a_res D a) k r) notes (a_next D a) (a_mem D a) (a_post D a) (a_posts D a) (a_call D a))).
      { intros notes HN2. constructor; cbn; auto; [|discriminate]. intros _. exists (cs ++ [b]), (rs ++ [r]). rewrite E, !map_app, map_put by exact HN. cbn [map]. rewrite U1, T2, U3, put_same. split; [reflexivity|].
        rewrite (run_snoc D cs _ _ _ b U2), DC. split; [reflexivity|]. split; [reflexivity|]. split; [|exact HN2]. intros j Hj. rewrite put_other; [apply U4; intros X; apply Hj, in_or_app; auto|]. intros ->. apply Hj, in_or_app. right. left. reflexivity. }
      rewrite told_snoc in G by (eapply run_length, U2). rewrite <- U5 in G. cbn [told] in G.
      destruct (a_post D a) as [p|]; [|apply G; rewrite app_nil_r; reflexivity]. destruct (post_name D b) as [n|]; [|apply G; rewrite app_nil_r; reflexivity]. rewrite Nat.eqb_refl. apply G. reflexivity.
  Qed.
  Lemma not_push_upd (f : nat -> pc) t p : (forall k, p <> CPush k) -> forall u j, upd f t p u = CPush j -> f u = CPush j.
  Proof. intros H u j. unfold upd. destruct (Nat.eqb u t); [intros X; exfalso; exact (H _ X)|auto]. Qed.
  Lemma env_inv a a' : ainv a -> aenv D nw a a' -> ainv a'.
  Proof.
    intros [R N L P C U B] H. destruct H as [t c b a H0 H1|a H0|t a H0|m a].
    - assert (RE : env nw (a_q D a) (mkSys (q (a_q D a)) (running (a_q D a)) (mtx (a_q D a)) (upd (pcs (a_q D a)) t (CPush (a_next D a))) (added (a_q D a)) (popped (a_q D a)) (executed (a_q D a)))).
      { destruct (a_q D a) as [Q r m f ad po ex]. apply e_add. exact H0. }
      assert (NX : ~ In (a_next D a) (executed (a_q D a))). { intros X. apply (executed_added _ R) in X. apply L in X. lia. }
      constructor; cbn.
      + eapply r_env; eassumption.
      + exact N.
      + intros k Hk. apply L in Hk. lia.
      + intros u k Hk. unfold upd in Hk. destruct (Nat.eqb_spec u t) as [->|Hu].
        * injection Hk as <-. split; [lia|]. split; [intros X; apply L in X; lia|]. intros w Hw. unfold upd in Hw. destruct (Nat.eqb_spec w t); [assumption|]. destruct (P _ _ Hw). lia.
        * destruct (P _ _ Hk) as (A1 & A2 & A3). split; [lia|]. split; [exact A2|]. intros w Hw. unfold upd in Hw. destruct (Nat.eqb_spec w t) as [Ew|Ew]; [assert (Hw2 : a_next D a = k) by congruence; exfalso; lia|]. apply A3, Hw.
      + intros k Hk. destruct (Nat.eq_dec k (a_next D a)) as [->|Hn].
        * rewrite !put_same. eexists _, b. split; [reflexivity|]. split; [reflexivity|]. cbn. split; [|reflexivity]. rewrite build_ok, H1. reflexivity.
        * rewrite !put_other by exact Hn. apply C. lia.
      + intros UB. destruct (U UB) as (cs & rs & U1 & U2). exists cs, rs. rewrite map_put by exact NX. auto.
      + intros UB. destruct (B UB) as (ks & k & rest & cs & rs & d & x & X1 & X2 & X3 & X4 & X5). exists ks, k, rest, cs, rs, d, x. rewrite X1 in NX. rewrite map_put by (intros Y; apply NX, in_or_app; auto).
        rewrite put_other; [auto|]. intros ->. apply NX, in_or_app. right. left. reflexivity.
    - constructor; cbn; auto.
      + eapply r_env; [exact R|]. destruct (a_q D a). apply e_stop. exact H0.
      + intros u k Hk. destruct (P u k) as (A1 & A2 & A3); [eapply not_push_upd; [|exact Hk]; discriminate|]. split; [exact A1|]. split; [exact A2|]. intros w Hw. apply A3. eapply not_push_upd; [|exact Hw]. discriminate.
    - constructor; cbn; auto.
      + eapply r_env; [exact R|]. destruct (a_q D a). apply e_wake. exact H0.
      + intros u k Hk. destruct (P u k) as (A1 & A2 & A3); [eapply not_push_upd; [|exact Hk]; discriminate|]. split; [exact A1|]. split; [exact A2|]. intros w Hw. apply A3. eapply not_push_upd; [|exact Hw]. discriminate.
    - constructor; cbn; auto.
  Qed.
  Lemma init_inv m : ainv (a_init D nw d0 m).
  Proof.
    constructor; cbn.
    - apply r_init. 
    - constructor.
    - contradiction.
    - intros t k X. change ((if Nat.ltb t nw then WLoop else CIdle) = CPush k) in X. destruct (Nat.ltb t nw); discriminate X.
    - lia.
    - intros _. exists [], []. auto.
    - discriminate.
  Qed.
  Lemma post_inv a a' : ainv a -> a_next D a = 0 -> asetpost D a a' -> ainv a'.
  Proof.
    intros [R N L P C U B] H0 H. assert (EX : executed (a_q D a) = []). { destruct (executed (a_q D a)) as [|x l] eqn:E; [reflexivity|]. assert (X : In x (executed (a_q D a))) by (rewrite E; left; reflexivity). apply (executed_added _ R), L in X. lia. }
    destruct H as [a|a]; (constructor; cbn; auto; [intros k Hk; lia| ]).
    all: intros UB; destruct (U UB) as (cs & rs & U1 & U2 & U3 & U4 & U5); exists cs, rs; rewrite EX in *; destruct cs; try discriminate; destruct rs; try discriminate; repeat split; auto.
  Qed.
  Lemma reach_inv a : areach D nw false d0 a -> ainv a.
  Proof.
    induction 1 as [m|a a' _ IH H|a a' _ IH H|a a' _ IH L H].
    - apply init_inv.
    - eapply step_inv; eassumption.
    - eapply env_inv; eassumption.
    - destruct L as [L|L]; [discriminate|]. eapply post_inv; eassumption.
  Qed.
End inv.

(** * C52 *)
(** Whatever the threads do, and whatever becomes of the memory that the arguments of the calls were in, the database and the results
    are as if the calls done so far had been made directly, one after the other, with the arguments at the time
    of the call; each is done once, its result is in its future, and those not done have none. *)
Theorem C52_serial D nw d0 a : areach D nw false d0 a -> a_ub D a = false ->
  exists cs rs, map (a_call D a) (executed (a_q D a)) = map Some cs /\ run_all D cs d0 = Some (rs, a_db D a) /\ map (a_res D a) (executed (a_q D a)) = map Some rs /\
    NoDup (executed (a_q D a)) /\ (forall k, ~ In k (executed (a_q D a)) -> a_res D a k = None) /\ a_notes D a = told D (a_post D a) cs rs.
Proof.
  intros H UB. apply reach_inv in H. destruct (v_run _ _ _ _ H UB) as (cs & rs & U1 & U2 & U3 & U4 & U5). exists cs, rs.
  assert (X := executed_nodup nw _ (v_reach _ _ _ _ H) (v_added _ _ _ _ H)). auto 10.
Qed.
Print Assumptions C52_serial.
(** Nothing undefined is done unless the calls made directly were undefined. *)
Theorem C52_defined D nw d0 a : areach D nw false d0 a -> a_ub D a = true ->
  exists ks k rest cs rs d b, executed (a_q D a) = ks ++ k :: rest /\ map (a_call D a) ks = map Some cs /\ run_all D cs d0 = Some (rs, d) /\ a_call D a k = Some b /\ do_call D b d = None.
Proof. intros H UB. apply reach_inv in H. exact (v_ub _ _ _ _ H UB). Qed.
Print Assumptions C52_defined.
(** With one worker the order is that in which the calls were queued. *)
Theorem C52_one_worker D d0 a : areach D 1 false d0 a -> a_ub D a = false ->
  exists rest cs rs, added (a_q D a) = executed (a_q D a) ++ rest /\ map (a_call D a) (executed (a_q D a)) = map Some cs /\ run_all D cs d0 = Some (rs, a_db D a) /\
    map (a_res D a) (executed (a_q D a)) = map Some rs.
Proof.
  intros H UB. destruct (C52_serial _ _ _ _ H UB) as (cs & rs & U1 & U2 & U3 & _). destruct (C36_order _ (v_reach _ _ _ _ (reach_inv _ _ _ _ H))) as [rest E]. exists rest, cs, rs. auto.
Qed.
Print Assumptions C52_one_worker.
(** With any number of workers: a call whose future was ready before another call was made is before it in the order. *)
Inductive athen (D : dbm) (nw : nat) : asys D -> asys D -> Prop :=
| at_refl a : athen D nw a a
| at_step a b c : athen D nw a b -> astep D nw b c \/ aenv D nw b c -> athen D nw a c.
Lemma step_executed nw t s s' : step nw t s s' -> exists x, executed s' = executed s ++ x.
Proof. intros H. inversion H; subst; cbn; try (exists []; rewrite app_nil_r; reflexivity). eexists. reflexivity. Qed.
Lemma do_q D a s' k : a_q D (do_task D a s' k) = s' /\ a_call D (do_task D a s' k) = a_call D a.
Proof.
  unfold do_task. destruct (a_ub D a); [split; reflexivity|]. destruct (a_task D a k) as [t|]; [|split; reflexivity]. destruct (r_call _ _); [|split; reflexivity]. destruct (do_call _ _ _) as [[r d]|]; [|split; reflexivity].
  destruct (t_post D t), (post_name D (t_body D t)); try (split; reflexivity). destruct (a_post D a) as [p|]; [destruct (_ =? p)|]; split; reflexivity.
Qed.
Theorem C52_real_time D nw d0 a b j k : areach D nw false d0 a -> athen D nw a b -> a_ub D b = false ->
  a_res D a j <> None -> a_next D a <= k -> In k (executed (a_q D b)) -> exists x y z, executed (a_q D b) = x ++ j :: y ++ k :: z.
Proof.
  intros R H UB HJ HK HI.
  assert (E : exists x, executed (a_q D b) = executed (a_q D a) ++ x).
  { clear - H. induction H as [a|a b c _ [x IH] [S|S]]; [exists []; rewrite app_nil_r; reflexivity| |].
    - inversion S as [t b' s' S' E|t b' s' k S' E]; subst; cbn; [rewrite E, IH; eauto|]. rewrite (proj1 (do_q D b s' k)), E, IH, <- app_assoc. eauto.
    - inversion S; subst; cbn; eauto. }
  assert (RA := reach_inv _ _ _ _ R). assert (UA : a_ub D a = false).
  { clear - H UB. induction H as [a|a b c _ IH S]; [exact UB|]. apply IH. destruct S as [S|S]; [|inversion S; subst; exact UB]. inversion S as [t b' s' S' E|t b' s' k S' E]; subst; [exact UB|]. unfold do_task in UB. destruct (a_ub D b); [exact UB|reflexivity]. }
  destruct (v_run _ _ _ _ RA UA) as (cs & rs & _ & _ & _ & U4 & _).
  assert (IJ : In j (executed (a_q D a))). { destruct (in_dec Nat.eq_dec j (executed (a_q D a))) as [|X]; [assumption|]. rewrite (U4 _ X) in HJ. congruence. }
  assert (NK : ~ In k (executed (a_q D a))). { intros X. apply (executed_added nw _ (v_reach _ _ _ _ RA)), (v_next _ _ _ _ RA) in X. lia. }
  destruct E as [r E]. rewrite E in *. apply in_app_or in HI. destruct HI as [HI|HI]; [contradiction|]. apply in_split in IJ. destruct IJ as (x & y & ->). apply in_split in HI. destruct HI as (u & z & ->).
  exists x, (y ++ u), z. rewrite <- !app_assoc. cbn. rewrite <- ?app_assoc. reflexivity.
Qed.
Print Assumptions C52_real_time.
(** When the destructor has returned (before its very long timeout), every call queued before it has its result. *)
Theorem C52_destructor D nw d0 a b : areach D nw false d0 a -> a_ub D a = false -> stopped nw (a_q D a) false b ->
  (forall k, In k b -> a_res D a k <> None) /\ exists r, added (a_q D a) = b ++ r.
Proof.
  intros R UB S. assert (RA := reach_inv _ _ _ _ R). destruct (C36_stop nw _ _ _ (v_reach _ _ _ _ RA) S) as (_ & _ & E & W). split; [|exact E].
  intros k Hk. destruct (W eq_refl) as [r P]. assert (X : In k (executed (a_q D a))). { eapply Permutation_in; [symmetry; exact P|]. apply in_or_app. auto. }
  destruct (v_run _ _ _ _ RA UB) as (cs & rs & _ & _ & U3 & _). apply (in_map (a_res D a)) in X. rewrite U3 in X. apply in_map_iff in X. destruct X as (y & X & _). congruence.
Qed.
Print Assumptions C52_destructor.
(** Futures become ready: as long as the destructor is not called, after a bounded number of steps of the threads in any order nothing
    is left to do, and then every call that was queued has its result. *)
Inductive asteps (D : dbm) (nw : nat) : nat -> asys D -> asys D -> Prop :=
| an_0 a : asteps D nw 0 a a
| an_S n a b c : astep D nw a b -> asteps D nw n b c -> asteps D nw (S n) a c.
Definition aidle (D : dbm) (nw : nat) (a : asys D) : Prop := forall b, ~ astep D nw a b.
Lemma step_done nw t s s' : step nw t s s' -> executed s' = executed s \/ exists k, executed s' = executed s ++ [k].
Proof. intros H. inversion H; subst; cbn; auto. right. eexists. reflexivity. Qed.
Lemma asteps_q D nw n a b : asteps D nw n a b -> finishing nw n (a_q D a) (a_q D b).
Proof.
  induction 1 as [a|n a b c S H IH]; [constructor|]. destruct S as [t a s' S E|t a s' k S E]; [|rewrite (proj1 (do_q D a s' k)) in IH]; econstructor; eassumption.
Qed.
Lemma areach_steps D nw l d0 n a b : asteps D nw n a b -> areach D nw l d0 a -> areach D nw l d0 b.
Proof. induction 1 as [a|n a b c S H IH]; intros R; [exact R|]. apply IH. eapply ar_step; eassumption. Qed.
Theorem C52_ready D nw d0 a : 0 < nw -> areach D nw false d0 a -> running (a_q D a) = true -> pcs (a_q D a) nw = CIdle -> exists bound,
  forall n b, asteps D nw n a b -> n <= bound /\ (aidle D nw b -> a_ub D b = false -> forall k, In k (added (a_q D b)) -> a_res D b k <> None).
Proof.
  intros Hn R Hr Hi. destruct (C36_all_run nw _ Hn (v_reach _ _ _ _ (reach_inv _ _ _ _ R)) Hr Hi) as [bound B]. exists bound. intros n b S. assert (F := asteps_q _ _ _ _ _ S). destruct (B _ _ F) as [B1 B2]. split; [exact B1|].
  intros I UB k Hk. destruct B2 as [_ P].
  { intros t s' X. destruct (step_done _ _ _ _ X) as [E|[j E]]; [exact (I _ (as_other D nw t b s' X E))|exact (I _ (as_do D nw t b s' j X E))]. }
  assert (RB := reach_inv _ _ _ _ (areach_steps _ _ _ _ _ _ _ S R)). destruct (v_run _ _ _ _ RB UB) as (cs & rs & _ & _ & U3 & _).
  assert (X : In k (executed (a_q D b))) by (eapply Permutation_in; [symmetry; exact P|exact Hk]). apply (in_map (a_res D b)) in X. rewrite U3 in X. apply in_map_iff in X. destruct X as (y & X & _). congruence.
Qed.
Print Assumptions C52_ready.
(** The destructor may never return (C36_stop_returns_refuted), without any call having been made. *)
Lemma ao D nw l d0 a t s' : areach D nw l d0 a -> step nw t (a_q D a) s' -> executed s' = executed (a_q D a) -> areach D nw l d0 (with_q D a s').
Proof. intros R S E. eapply ar_step; [exact R|]. eapply as_other; eassumption. Qed.
Theorem C52_destructor_returns_refuted D d0 m : exists a b, areach D 1 false d0 a /\ a_mem D a = m /\ pcs (a_q D a) 1 = SJoin false b /\ aidle D 1 a.
Proof.
  assert (R := ar_init D 1 false d0 m). unfold a_init, init in R.
  eapply ar_env in R; [|apply ae_stop; reflexivity].
  eapply (ao _ _ _ _ _ 1) in R; [|eapply s_again; reflexivity|reflexivity].
  eapply (ao _ _ _ _ _ 1) in R; [|eapply s_empty; reflexivity|reflexivity].
  eapply (ao _ _ _ _ _ 0) in R; [|apply w_run; reflexivity|reflexivity].
  eapply (ao _ _ _ _ _ 0) in R; [|apply w_lock; reflexivity|reflexivity].
  eapply (ao _ _ _ _ _ 0) in R; [|apply w_empty; reflexivity|reflexivity].
  eapply (ao _ _ _ _ _ 0) in R; [|apply w_pred_false; reflexivity|reflexivity].
  eapply (ao _ _ _ _ _ 1) in R; [|eapply s_store; reflexivity|reflexivity].
  eapply (ao _ _ _ _ _ 1) in R; [|eapply s_notify_all; reflexivity|reflexivity].
  eapply (ao _ _ _ _ _ 0) in R; [|apply w_block; reflexivity|reflexivity].
  eexists. exists []. split; [exact R|]. split; [reflexivity|]. split; [reflexivity|].
  intros a' H.
  assert (Y : exists t s', step 1 t (mkSys [] false None (upd (upd (wake_all (upd (upd (upd (upd (upd (upd (upd (upd (pcs (init 1)) 1 (SHead [])) 1 (SCheck [])) 1 (SStore false [])) 0 WLock) 0 WCheck) 0 WPred) 0 WSleep) 1 (SNotifyAll false []))) 1 (SJoin false [])) 0 WBlocked) [] [] []) s').
  { inversion H; subst; cbn in *; eexists _, _; eassumption. }
  destruct Y as (t & s' & Y). clear H. inversion Y; subst; clear Y; unfold upd, wake_all in *; destruct t as [|[|t]]; cbn in *; try congruence.
  match goal with X : forall u, u < 1 -> _ |- _ => specialize (X 0 ltac:(lia)); cbn in X; congruence end.
Qed.
Print Assumptions C52_destructor_returns_refuted.
(** The task has copies of the arguments: whatever becomes of the memory of the caller after the call, the views in the task are
    of strings that are there, and doing it is the call with the arguments at the time of the call. *)
Theorem C52_arguments D (mem : nat -> bytes) (c : acall (d_st D) nat) b : r_call (fun l => Some (mem l)) c = Some b ->
  exists t, r_call (v_look (fst (build mem c))) (snd (build mem c)) = Some t /\ forall d, do_call D t d = do_call D b d.
Proof. intros H. exists (norm b). split; [rewrite build_ok, H; reflexivity|]. intros d. apply norm_do. Qed.
Print Assumptions C52_arguments.

(** * Executions with one call *)
Definition one (D : dbm) (d0 : d_st D) (m : nat -> bytes) (c : acall (d_st D) nat) (b : acall (d_st D) bytes) : asys D :=
  mkA D (mkSys [] true None (upd (upd (upd (upd (upd (pcs (init 1)) 2 (CPush 0)) 2 CNotify) 0 WLock) 0 WCheck) 0 (WDo 0)) [0] [0] [])
    d0 false (put (fun _ => None) 0 (mkTask D (fst (build m c)) (snd (build m c)) (Some 0))) (fun _ => None) [] 1 m (Some 0) 1 (put (fun _ => None) 0 b).
Lemma one_reach D l d0 m c b : r_call (fun x => Some (m x)) c = Some b -> areach D 1 l d0 (one D d0 m c b).
Proof.
  intros H. assert (R := ar_init D 1 l d0 m). unfold a_init, init in R.
  eapply ar_post in R; [|right; reflexivity|apply ap_set]. cbn [a_q a_db a_ub a_task a_res a_notes a_next a_mem a_post a_posts a_call] in R.
  eapply ar_env in R; [|eapply (ae_call D 1 2 c b); [reflexivity|exact H]].
  eapply (ao _ _ _ _ _ 2) in R; [|eapply c_push; reflexivity|reflexivity].
  eapply (ao _ _ _ _ _ 0) in R; [|apply w_run; reflexivity|reflexivity].
  eapply (ao _ _ _ _ _ 0) in R; [|apply w_lock; reflexivity|reflexivity].
  eapply (ao _ _ _ _ _ 0) in R; [|apply w_pop; reflexivity|reflexivity].
  exact R.
Qed.
Definition one_q : sys := mkSys [] true None (upd (pcs (mkSys [] true None (upd (upd (upd (upd (upd (pcs (init 1)) 2 (CPush 0)) 2 CNotify) 0 WLock) 0 WCheck) 0 (WDo 0)) [0] [0] [])) 0 WLoop) [0] [0] ([] ++ [0]).
Lemma one_done D l d0 m c b : r_call (fun x => Some (m x)) c = Some b -> areach D 1 l d0 (do_task D (one D d0 m c b) one_q 0).
Proof. intros H. eapply ar_step; [apply one_reach, H|]. eapply (as_do D 1 0); [apply w_do; reflexivity|reflexivity]. Qed.
(** What the documentation says of the postprocessor, "called every time in parallel after every method is called" with the name of
    the method (tkrzw_dbm_async.h:55-61, 107-114), is not so: it is not called after Process and the like, *)
Theorem C52_post_refuted D d0 : exists a, areach D 1 false d0 a /\ a_ub D a = false /\ a_post D a = Some 0 /\ a_res D a 0 = Some (RCode SUCCESS) /\
  (exists f, a_call D a 0 = Some (AOther MProcess f)) /\ a_notes D a = [].
Proof.
  pose (f := fun d : d_st D => Some (RCode SUCCESS, d)). assert (R := one_done D false d0 (fun _ => []) (AOther MProcess f) (AOther MProcess f) eq_refl).
  eexists. split; [exact R|]. repeat split. exists f. reflexivity.
Qed.
Print Assumptions C52_post_refuted.
(** and the name given after ExportToFlatRecords is "ExportRecordsToFlatRecords". *)
Theorem C52_post_name_refuted D d0 : exists a, areach D 1 false d0 a /\ a_ub D a = false /\
  (exists f, a_call D a 0 = Some (AOther MExportToFlatRecords f)) /\
  a_notes D a = [(0, [69; 120; 112; 111; 114; 116; 82; 101; 99; 111; 114; 100; 115; 84; 111; 70; 108; 97; 116; 82; 101; 99; 111; 114; 100; 115]%N, SUCCESS)].
Proof.
  pose (f := fun d : d_st D => Some (RCode SUCCESS, d)). assert (R := one_done D false d0 (fun _ => []) (AOther MExportToFlatRecords f) (AOther MExportToFlatRecords f) eq_refl).
  eexists. split; [exact R|]. repeat split. exists f. reflexivity.
Qed.
Print Assumptions C52_post_name_refuted.
(** SetCommonPostprocessor while a task is waiting: the task uses the object that was deleted, although the only call is a Get. *)
Lemma do_freed D a s' k t c p p' n : a_ub D a = false -> a_task D a k = Some t -> r_call (v_look (t_vec D t)) (t_body D t) = Some c -> do_call D c (a_db D a) <> None ->
  t_post D t = Some p -> a_post D a = Some p' -> p <> p' -> post_name D (t_body D t) = Some n ->
  a_ub D (do_task D a s' k) = true /\ a_next D (do_task D a s' k) = a_next D a.
Proof.
  intros H1 H2 H3 H4 H5 H6 H7 H8. unfold do_task. rewrite H1, H2, H3. destruct (do_call D c (a_db D a)) as [[r d']|]; [|contradiction]. rewrite H5, H8, H6.
  destruct (Nat.eqb_spec p p'); [contradiction|]. split; reflexivity.
Qed.
Theorem C52_set_post_refuted D d0 : exists a, areach D 1 true d0 a /\ a_ub D a = true /\ a_next D a = 1 /\ a_call D a 0 = Some (AGet []) /\ forall d, do_call D (AGet []) d <> None.
Proof.
  assert (X : forall d, do_call D (AGet []) d <> None). { intros d. cbn [do_call]. destruct (op_get D d [] []) as [[x y] z]. discriminate. }
  assert (R := one_reach D true d0 (fun _ => []) (AGet 0) (AGet []) eq_refl).
  eapply ar_post in R; [|left; reflexivity|apply ap_set].
  eapply ar_step in R; [|eapply (as_do D 1 0 _ one_q 0); [apply w_do; reflexivity|reflexivity]].
  eexists. split; [exact R|]. rewrite (proj2 (do_q D _ _ _)).
  match goal with |- a_ub D (do_task D ?a ?s ?k) = true /\ _ => destruct (do_freed D a s k (mkTask D (mkVec 1 0 [[]]) (AGet (0, 0)) (Some 0)) (AGet []) 0 1 t_get) as [Y Z]; try reflexivity; [apply X|discriminate|] end.
  split; [exact Y|]. rewrite Z. repeat split. exact X.
Qed.
Print Assumptions C52_set_post_refuted.

(** * StatusFuture *)
(** The Get methods called in some order on a future whose result is there. *)
Fixpoint sf_gets (gs : list ftype) (f : sfut) (r : res) : list sf_out :=
  match gs with [] => [] | g :: gs' => let '(o, f') := sf_get g f r in o :: sf_gets gs' f' r end.
Definition is_err (o : sf_out) : Prop := exists c, o = SfError c /\ c <> SUCCESS.
(** The method for the type of the result gives it once; all other calls are refused and do no harm. *)
Theorem C52_future ty r l1 l2 : ~ In ty l1 -> exists e1 e2, sf_gets (l1 ++ ty :: l2) (mkSf (Some true) ty) r = e1 ++ SfGot r :: e2 /\
  length e1 = length l1 /\ length e2 = length l2 /\ Forall is_err e1 /\ Forall is_err e2.
Proof.
  assert (E : forall a b, ftype_eqb a b = true <-> a = b) by (intros [] []; split; (reflexivity || discriminate)).
  assert (C : forall g : ftype, match g with FStatus | FString => INVALID_ARGUMENT_ERROR | _ => INFEASIBLE_ERROR end <> SUCCESS) by (intros []; discriminate).
  assert (L2 : forall l, exists e, sf_gets l (mkSf (Some false) ty) r = e /\ length e = length l /\ Forall is_err e).
  { induction l as [|g l (e & IH1 & IH2 & IH3)]; [exists []; auto|]. cbn [sf_gets]. unfold sf_get. cbn [sf_type sf_ptr].
    destruct (ftype_eqb ty g); (eexists; split; [reflexivity|]; rewrite IH1; split; [cbn; congruence|constructor; [eexists; split; [reflexivity|apply C]|assumption]]). }
  induction l1 as [|g l1 IH]; intros H.
  - destruct (L2 l2) as (e & X1 & X2 & X3). exists [], e. cbn [app sf_gets]. unfold sf_get. cbn [sf_type sf_ptr]. rewrite (proj2 (E ty ty) eq_refl), X1. auto.
  - destruct IH as (e1 & e2 & X1 & X2 & X3 & X4 & X5); [intros X; apply H; right; exact X|]. cbn [app sf_gets]. unfold sf_get. cbn [sf_type sf_ptr]. destruct (ftype_eqb ty g) eqn:G; [apply E in G; subst; exfalso; apply H; left; reflexivity|].
    rewrite X1. eexists (_ :: e1), e2. split; [reflexivity|]. split; [cbn; congruence|]. split; [exact X3|]. split; [|exact X5]. constructor; [eexists; split; [reflexivity|apply C]|exact X4].
Qed.
Print Assumptions C52_future.
(** Wait, documented to return true if the operation has been done, is undefined once the result has been got, and so is every use of an object that was moved from. *)
Theorem C52_wait_refuted ty r : let f := mkSf (Some true) ty in sf_wait f = Some true /\ fst (sf_get ty f r) = SfGot r /\ sf_wait (snd (sf_get ty f r)) = None /\
  sf_wait (snd (sf_move f)) = None /\ fst (sf_get ty (snd (sf_move f)) r) = SfUndef.
Proof. destruct ty; repeat split. Qed.
Print Assumptions C52_wait_refuted.

(** * A case: one worker, one call of Append with a delimiter on a database with a record *)
Example C52_case : let a := do_task std_tree (one std_tree [([1], [2])]%N (fun i => [N.of_nat i]) (AAppendC 1 2 3) (AAppendC [1] [2] [3])%N) one_q 0 in
  areach std_tree 1 false [([1], [2])]%N a /\ a_ub std_tree a = false /\ a_db std_tree a = [([1], [2; 3; 2])]%N /\ a_res std_tree a 0 = Some (RCode SUCCESS) /\
  a_notes std_tree a = [(0, t_append, SUCCESS)].
Proof. split; [apply one_done; reflexivity|]. vm_compute. auto. Qed.
(** and one where the destructor is about to be called. *)
Example C52_case_ready : let a := one std_tree [([1], [2])]%N (fun i => [N.of_nat i]) (AAppendC 1 2 3) (AAppendC [1] [2] [3])%N in
  areach std_tree 1 false [([1], [2])]%N a /\ running (a_q std_tree a) = true /\ pcs (a_q std_tree a) 1 = CIdle /\ a_res std_tree a 0 = None.
Proof. split; [apply one_reach; reflexivity|]. vm_compute. auto. Qed.

(** * What each call does to the records *)
(** The result and the new map of a call on a database that holds the map [m] and does not fail. *)
Definition effect {T} (m : amap) (c : acall T bytes) (r : res) (m' : amap) : Prop :=
  match c with
  | AGet k => same_map m' m /\ r = match m k with Some v => RStr SUCCESS v | None => RStr NOT_FOUND_ERROR [] end
  | AGetMulti ks => same_map m' m /\ exists l, (forall k v, In (k, v) l <-> In k ks /\ m k = Some v) /\ NoDup (map fst l) /\
      ((Forall (fun k => m k <> None) ks /\ r = RMap SUCCESS l) \/ (Exists (fun k => m k = None) ks /\ r = RMap NOT_FOUND_ERROR l))
  | ASetC k v ow => (ow = true \/ m k = None) /\ r = RCode SUCCESS /\ same_map m' (aset m k v) \/
                    (ow = false /\ m k <> None) /\ r = RCode DUPLICATION_ERROR /\ same_map m' m
  | ASetMulti rs ow => same_map m' (spec_sets m rs ow) /\ (r = RCode SUCCESS \/ ow = false /\ r = RCode DUPLICATION_ERROR)
  | ARemoveC k => match m k with Some _ => r = RCode SUCCESS /\ same_map m' (adel m k) | None => r = RCode NOT_FOUND_ERROR /\ same_map m' m end
  | ARemoveMulti ks => same_map m' (spec_removes m ks) /\ (r = RCode SUCCESS /\ NoDup ks /\ Forall (fun k => m k <> None) ks \/ r = RCode NOT_FOUND_ERROR /\ ~ (NoDup ks /\ Forall (fun k => m k <> None) ks))
  | AAppendC k v d => r = RCode SUCCESS /\ same_map m' (aset m k (match m k with Some x => x ++ d ++ v | None => v end))
  | AAppendMulti rs d => r = RCode SUCCESS /\ same_map m' (spec_appends m rs d)
  | ACas k e w => (expected_holds m k (to_sview e) /\ r = RCode SUCCESS /\ same_map m' (match w with PNull => adel m k | PAny => m | PStr x => aset m k x end)) \/
                  (~ expected_holds m k (to_sview e) /\ r = RCode INFEASIBLE_ERROR /\ same_map m' m)
  | ACasMulti e w => let holds := Forall (fun p => expected_holds m (fst p) (to_sview (snd p))) e in
                     (holds /\ r = RCode SUCCESS /\ same_map m' (spec_updates m (map (fun p => (fst p, to_sview (snd p))) w))) \/ (~ holds /\ r = RCode INFEASIBLE_ERROR /\ same_map m' m)
  | AInc k inc init =>
      let old := match m k with Some v => number_of v | None => init end in
      if (inc =? int64min)%Z then r = RInt SUCCESS old /\ same_map m' m
      else r = RInt SUCCESS (int64_of (old + inc)) /\ exists w, stores w (int64_of (old + inc)) /\ same_map m' (aset m k w)
  | ARekey o n ow cp =>
      match m o with
      | None => r = RCode NOT_FOUND_ERROR /\ same_map m' m
      | Some x => (ow = true \/ m n = None) /\ r = RCode SUCCESS /\ same_map m' (aset (if cp then m else adel m o) n x) \/
                  (ow = false /\ m n <> None) /\ r = RCode DUPLICATION_ERROR /\ same_map m' m
      end
  | APop => exists k v, (r = RPair SUCCESS k v /\ m k = Some v /\ same_map m' (adel m k)) \/ (res_code r <> SUCCESS)
  | AOther _ _ => True
  end.
Theorem C52_methods D (Ok : succeeds D) (OkM : forall S d (l : list (bytes * proc S)) w s, d_ok D d -> exists d' s', d_multi D d l w s = (SUCCESS, d', s'))
  (c : acall (d_st D) bytes) d r d' : d_ok D d -> (forall k v, d_view D d k = Some v -> bytes_ok v) ->
  match c with AInc _ _ init => int64_of init = init | _ => True end -> do_call D c d = Some (r, d') -> effect (d_view D d) c r (d_view D d').
Proof.
  intros H HB HI E. pose proof (fun S d k (p : proc S) w s c => not_fails D S d k p w s c Ok) as NF.
  assert (NM : forall S d (l : list (bytes * proc S)) w s c, d_ok D d -> ~ multi_fails D d l w s c).
  { intros S d1 l w s c1 H1 [F (d2 & s2 & E2)]. destruct (OkM S d1 l w s H1) as (d3 & s3 & E3). pose proof (eq_trans (eq_sym E2) E3) as X. inversion X. contradiction. }
  destruct c as [k|ks|k v ow|rs ow|k|ks|k v dl|rs dl|k e w|e w|k i j|o n ow cp| |m f]; cbn [do_call effect] in E |- *.
  - destruct (op_get D d k []) as [[c v] d1] eqn:EO. injection E as <- <-. destruct (C09_get D _ _ _ _ _ _ H EO) as [F|(O & M & X)]; [destruct (NF _ _ _ _ _ _ _ H F)|].
    split; [exact M|]. destruct (d_view D d k); destruct X as [-> ->]; reflexivity.
  - destruct (op_get_multi D d ks [] SUCCESS) as [[c l] d1] eqn:EO. injection E as <- <-. destruct (C09_get_multi D Ok _ _ _ _ _ H EO) as (O & M & X1 & X2 & X3).
    split; [exact M|]. exists l. split; [exact X1|]. split; [exact X2|]. destruct (forallb _ ks) eqn:FB.
    + left. split; [|subst; reflexivity]. rewrite forallb_forall in FB. apply Forall_forall. intros k Hk X. specialize (FB k Hk). rewrite X in FB. discriminate.
    + right. split; [|subst; reflexivity]. clear - FB. induction ks as [|k ks IH]; [discriminate|]. cbn in FB. destruct (d_view D d k) eqn:X; [right; apply IH, FB|left; exact X].
  - destruct (op_set D d k v ow []) as [[c v1] d1] eqn:EO. injection E as <- <-. destruct (C09_set D _ _ _ _ _ _ _ _ H EO) as [F|(O & X)]; [destruct (NF _ _ _ _ _ _ _ H F)|].
    destruct (d_view D d k); destruct X as [_ X]; [destruct ow; destruct X as [-> X]|destruct X as [-> X]]; [left|right|left]; repeat split; auto; discriminate.
  - destruct (op_set_multi D d rs ow SUCCESS) as [c d1] eqn:EO. injection E as <- <-. destruct (C09_set_multi D Ok _ _ _ _ _ H EO) as (O & M & X1 & X2 & X3).
    split; [exact M|]. destruct X2 as [->| ->]; [auto|]. destruct ow; [specialize (X1 eq_refl); discriminate|auto].
  - destruct (op_remove D d k []) as [[c v] d1] eqn:EO. injection E as <- <-. destruct (C09_remove D _ _ _ _ _ _ H EO) as [F|(O & X)]; [destruct (NF _ _ _ _ _ _ _ H F)|].
    destruct (d_view D d k); destruct X as (-> & _ & X); auto.
  - destruct (op_remove_multi D d ks SUCCESS) as [c d1] eqn:EO. injection E as <- <-. destruct (C09_remove_multi D Ok _ _ _ _ H EO) as (O & M & X1 & X2).
    split; [exact M|]. destruct X1 as [->| ->]; [left; split; [reflexivity|apply X2; reflexivity]|right]. split; [reflexivity|]. intros X. apply X2 in X. discriminate.
  - destruct (op_append D d k v dl) as [c d1] eqn:EO. injection E as <- <-. destruct (C09_append D _ _ _ _ _ _ H EO) as [F|(O & -> & X)]; [destruct (NF _ _ _ _ _ _ _ H F)|]. auto.
  - destruct (op_append_multi D d rs dl SUCCESS) as [c d1] eqn:EO. injection E as <- <-. destruct (C09_append_multi D Ok _ _ _ _ _ H EO) as (O & -> & X). auto.
  - destruct (op_cas D d k (to_sview e) (to_sview w) [] false) as [[[c a] f] d1] eqn:EO. injection E as <- <-.
    destruct (C09_compare_exchange D _ _ _ _ _ _ _ _ _ _ H EO) as [F|(O & _ & _ & X)]; [destruct (NF _ _ _ _ _ _ _ H F)|].
    destruct X as [(A & -> & X)|(A & -> & X)]; [left|right; auto]. split; [exact A|]. split; [reflexivity|]. destruct w; exact X.
  - destruct (op_cas_multi D d _ _) as [c d1] eqn:EO. injection E as <- <-.
    destruct (C10_compare_exchange_multi D _ _ _ _ _ H EO) as [F|(O & X)]; [destruct (NM _ _ _ _ _ _ H F)|].
    assert (FE : Forall (fun '(k, e) => expected_holds (d_view D d) k e) (map (fun p => (fst p, to_sview (snd p))) e) <-> Forall (fun p => expected_holds (d_view D d) (fst p) (to_sview (snd p))) e).
    { rewrite Forall_map. reflexivity. }
    destruct X as [(A & -> & X)|(A & -> & X)]; [left|right]; (split; [|split; [reflexivity|exact X]]); rewrite <- FE; exact A.
  - destruct (op_inc D d k i 0 j) as [[[c z] d1]|] eqn:EO; [|discriminate]. injection E as <- <-.
    destruct (C09_increment D d k i 0%Z j _ H (HB k) HI EO) as [(c1 & z1 & d2 & X & F)|[(c1 & F & _)|[(X & _)|(z1 & d2 & X & O & Y)]]];
      [destruct (NF _ _ _ _ _ _ _ H F)|destruct (NF _ _ _ _ _ _ _ H F)|discriminate|]. injection X as <- <- <-.
    destruct (i =? int64min)%Z; [destruct Y as [Y ->]; auto|destruct Y as [-> Y]; auto].
  - destruct (op_rekey D d o n ow cp []) as [[c v] d1] eqn:EO. injection E as <- <-. destruct (C09_rekey D _ _ _ _ _ _ _ _ _ H EO) as [F|(O & X)]; [destruct (NM _ _ _ _ _ _ H F)|].
    destruct (d_view D d o) as [x|]; [|destruct X as (-> & _ & X); auto].
    destruct ow; cbn in X; [destruct X as (-> & _ & X); left; auto|]. destruct (d_view D d n); destruct X as (-> & _ & X); [right|left]; repeat split; auto; discriminate.
  - destruct (op_pop D d [] []) as [[c [k v]] d1] eqn:EO. injection E as <- <-. destruct (C09_pop_first D _ _ _ _ _ _ _ H EO) as [X1 X2].
    exists k, v. destruct (code_eqb_spec c SUCCESS) as [->|NE]; [left; destruct (X1 eq_refl) as (_ & A & B); auto|right; exact NE].
  - exact I.
Qed.
Print Assumptions C52_methods.
Example C52_methods_ex : succeeds std_tree /\ (forall S d (l : list (bytes * proc S)) w s, d_ok std_tree d -> exists d' s', d_multi std_tree d l w s = (SUCCESS, d', s')) /\
  do_call std_tree (ARekey [97]%N [98]%N true false) [([97], [49])]%N = Some (RCode SUCCESS, [([98], [49])]%N).
Proof. split; [exact C09_succeeds|]. split; [|vm_compute; reflexivity]. intros S d l w s H. pose proof (l_multi_spec S l w d s H) as P. cbn. destruct (l_multi d l w s) as [[c d'] s']. destruct P as [-> _]. eauto. Qed.

(** The name the postprocessor is told is that of the method, but for the two of flat records (C52_post_name_refuted); the calls of processors tell nothing. *)
Definition lit (s : string) : bytes := map N_of_ascii (list_ascii_of_string s).
Definition method_name {T B} (c : acall T B) : string :=
  match c with
  | AGet _ => "Get" | AGetMulti _ => "GetMulti" | ASetC _ _ _ => "Set" | ASetMulti _ _ => "SetMulti" | ARemoveC _ => "Remove" | ARemoveMulti _ => "RemoveMulti"
  | AAppendC _ _ _ => "Append" | AAppendMulti _ _ => "AppendMulti" | ACas _ _ _ => "CompareExchange" | ACasMulti _ _ => "CompareExchangeMulti"
  | AInc _ _ _ => "Increment" | ARekey _ _ _ _ => "Rekey" | APop => "PopFirst"
  | AOther m _ =>
      match m with
      | MPushLast => "PushLast" | MClear => "Clear" | MRebuild => "Rebuild" | MSynchronize => "Synchronize" | MCopyFileData => "CopyFileData" | MExport => "Export"
      | MExportToFlatRecords => "ExportToFlatRecords" | MImportFromFlatRecords => "ImportFromFlatRecords" | MSearchModal => "SearchModal"
      | MProcess => "Process" | MProcessFirst => "ProcessFirst" | MProcessEach => "ProcessEach" | MProcessMulti => "ProcessMulti"
      end
  end%string.
Theorem C52_names D {B} (c : acall (d_st D) B) : post_name D c = Some (lit (method_name c)) \/
  exists m f, c = AOther m f /\ (post_name D c = None /\ In m [MProcess; MProcessFirst; MProcessEach; MProcessMulti] \/ In m [MExportToFlatRecords; MImportFromFlatRecords]).
Proof.
  destruct c as [k|ks|k v ow|rs ow|k|ks|k v dl|rs dl|k e w|e w|k i j|o n ow cp| |m f]; try (left; reflexivity).
  destruct m; try (left; reflexivity); right; do 2 eexists; (split; [reflexivity|]); cbn; auto 10.
Qed.
Print Assumptions C52_names.
