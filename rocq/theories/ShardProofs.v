(** Lemmas on the model of ShardDBM: the operations on records. *)
From Coq Require Import List NArith Bool Arith Lia Permutation.
Import ListNotations.
From Verif Require Import Bytes BytesOrder DbmModel DbmProps StatusModel ShardModel.
Local Open Scope nat_scope.

Lemma set_nth_length A (l : list A) i x : length (set_nth l i x) = length l.
Proof. revert i. induction l as [|y l IH]; intros [|i]; cbn; auto. Qed.
Lemma set_nth_same A (l : list A) i x : i < length l -> nth_error (set_nth l i x) i = Some x.
Proof. revert i. induction l as [|y l IH]; intros [|i] H; cbn in *; try lia; auto. apply IH. lia. Qed.
Lemma set_nth_other A (l : list A) i j x : i <> j -> nth_error (set_nth l i x) j = nth_error l j.
Proof. revert i j. induction l as [|y l IH]; intros [|i] [|j] H; cbn; auto; try congruence. Qed.
Lemma both_ok c i : both c i = SUCCESS -> c = SUCCESS /\ i = SUCCESS.
Proof. unfold both. destruct (code_eqb_spec c SUCCESS) as [->|N]; [auto|congruence]. Qed.
Lemma both_l i : both SUCCESS i = i.
Proof. reflexivity. Qed.

Section Shards.
  Variable D : dbm.
  Variable h : bytes -> nat.
  Variable n : nat.
  Hypothesis n_pos : 0 < n.
  Hypothesis h_lt : forall k, h k < n.
  Notation shards := (list (d_st D)).
  (** What the shards hold together. *)
  Definition sh_view (ds : shards) : amap := fun k => match nth_error ds (h k) with Some d => d_view D d k | None => None end.
  (** Each shard is sound and has only keys of its own. *)
  Definition sh_ok (ds : shards) : Prop :=
    length ds = n /\ forall i d, nth_error ds i = Some d -> d_ok D d /\ forall k, d_view D d k <> None -> h k = i.
  Lemma sh_nth ds k : sh_ok ds -> exists d, nth_error ds (h k) = Some d.
  Proof. intros [L _]. destruct (nth_error ds (h k)) eqn:E; [eauto|]. apply nth_error_None in E. pose proof (h_lt k). lia. Qed.
  Lemma act_other m k a k' : k <> k' -> act m k a k' = m k'.
  Proof. intros N. destruct a; cbn; auto; unfold adel, aset; destruct (beqb_spec k k'); congruence. Qed.
  Lemma ref_other S m k (p : proc S) w s k' : k <> k' -> fst (ref_process m k p w s) k' = m k'.
  Proof. intros N. unfold ref_process. destruct (call m k p s) as [a s']. cbn. destruct w; auto. now apply act_other. Qed.
  Lemma ref_at S m m' k (p : proc S) w s : m k = m' k -> fst (ref_process m k p w s) k = fst (ref_process m' k p w s) k /\ snd (ref_process m k p w s) = snd (ref_process m' k p w s).
  Proof.
    intros E. unfold ref_process. assert (C : call m k p s = call m' k p s) by (unfold call; now rewrite E). rewrite C. destruct (call m' k p s) as [a s1]. cbn. split; auto. destruct w; auto. destruct a; cbn; auto; unfold adel, aset; now rewrite beqb_refl.
  Qed.
  (** One call on one shard. *)
  Lemma shard_call S ds k (p : proc S) w s d d' s' : sh_ok ds -> nth_error ds (h k) = Some d -> d_ok D d' ->
    same_map (d_view D d') (fst (ref_process (d_view D d) k p w s)) -> s' = snd (ref_process (d_view D d) k p w s) ->
    sh_ok (set_nth ds (h k) d') /\ same_map (sh_view (set_nth ds (h k) d')) (fst (ref_process (sh_view ds) k p w s)) /\ s' = snd (ref_process (sh_view ds) k p w s).
  Proof.
    intros [L A] E O V ->. assert (B : h k < length ds) by (apply nth_error_Some; congruence).
    assert (R : d_view D d k = sh_view ds k) by (unfold sh_view; now rewrite E).
    destruct (ref_at S _ _ k p w s R) as [R1 R2]. split; [|split; [|exact R2]].
    - split; [now rewrite set_nth_length|]. intros i d0 Hi. destruct (Nat.eq_dec (h k) i) as [<-|N].
      + rewrite set_nth_same in Hi by exact B. inversion Hi; subst d0. split; auto. intros k' Hk. rewrite V in Hk.
        destruct (beqb_spec k k') as [->|N]; auto. rewrite ref_other in Hk by exact N. apply (proj2 (A _ _ E)), Hk.
      + rewrite set_nth_other in Hi by exact N. auto.
    - intros k'. unfold sh_view at 1. destruct (Nat.eq_dec (h k) (h k')) as [Eh|N].
      + rewrite <- Eh, set_nth_same by exact B. rewrite V. destruct (beqb_spec k k') as [<-|N]; [exact R1|]. rewrite !ref_other by exact N. unfold sh_view. now rewrite <- Eh, E.
      + rewrite set_nth_other by exact N. rewrite ref_other by congruence. reflexivity.
  Qed.
  Lemma sh_process_ok S ds k (p : proc S) w s ds' s' : sh_ok ds -> sh_process D h ds k p w s = (SUCCESS, ds', s') ->
    sh_ok ds' /\ same_map (sh_view ds') (fst (ref_process (sh_view ds) k p w s)) /\ s' = snd (ref_process (sh_view ds) k p w s).
  Proof.
    intros O W. unfold sh_process in W. destruct (sh_nth ds k O) as [d E]. rewrite E in W. destruct (d_process D d k p w s) as [[c d'] s1] eqn:P. inversion W; subst.
    destruct O as [L A]. destruct (d_process_ok D S d k p w s d' s' (proj1 (A _ _ E)) P) as (P1 & P2 & P3). apply (shard_call S ds k p w s d d' s'); auto. split; auto.
  Qed.

  (** * ProcessMulti *)
  (** The union when shard 0 holds [m0]. *)
  Definition mixed (m0 : amap) (ds : shards) : amap := fun k => if h k =? 0 then m0 k else sh_view ds k.
  Definition sh_ok' (ds : shards) : Prop :=
    length ds = n /\ forall i d, i <> 0 -> nth_error ds i = Some d -> d_ok D d /\ forall k, d_view D d k <> None -> h k = i.
  Lemma status_stays S w : forall (l : list (bytes * proc S)) m ds c s m1 ds' s', c <> SUCCESS -> ref_multi m (map (wrap D h w) l) w (ds, c, s) = (m1, (ds', SUCCESS, s')) -> False.
  Proof.
    induction l as [|[k p] l IH]; intros m ds c s m1 ds' s' N W; cbn [map ref_multi] in W; [inversion W; congruence|].
    unfold wrap at 1 in W. cbn [fst snd] in W. destruct (ref_process m k (if h k =? 0 then lift0 D p else delegator D (h k) p w) w (ds, c, s)) as [m2 [[ds2 c2] s2]] eqn:R. revert W. apply IH.
    unfold ref_process, call in R. destruct (h k =? 0).
    - unfold lift0 in R. cbn in R. destruct (m k) as [v|]; [destruct (on_full p k v s)|destruct (on_empty p k s)]; inversion R; subst; auto.
    - unfold delegator, delegate in R. cbn in R. destruct (nth_error ds (h k)) as [d|]; [destruct (d_process D d k p w s) as [[c3 d3] s3]|]; destruct (m k); inversion R; subst; auto; unfold both; destruct (code_eqb_spec c SUCCESS); congruence.
  Qed.
  Lemma multi_mixed S (l : list (bytes * proc S)) w : forall m0 M ds c s m1 ds' s', sh_ok' ds -> (forall k, m0 k <> None -> h k = 0) -> same_map (mixed m0 ds) M ->
    ref_multi m0 (map (wrap D h w) l) w (ds, c, s) = (m1, (ds', SUCCESS, s')) ->
    c = SUCCESS /\ sh_ok' ds' /\ nth_error ds' 0 = nth_error ds 0 /\ (forall k, m1 k <> None -> h k = 0) /\ same_map (mixed m1 ds') (fst (ref_multi M l w s)) /\ s' = snd (ref_multi M l w s).
  Proof.
    induction l as [|[k p] l IH]; intros m0 M ds c s m1 ds' s' O K E W.
    - cbn in W. inversion W; subst. cbn. split; auto.
    - cbn [map ref_multi] in W. unfold wrap at 1 in W. cbn [fst snd] in W. cbn [ref_multi].
      destruct (Nat.eqb_spec (h k) 0) as [Z|NZ].
      + assert (X : ref_process m0 k (lift0 D p) w (ds, c, s) = (fst (ref_process m0 k p w s), (ds, c, snd (ref_process m0 k p w s)))).
        { unfold ref_process, call, lift0. cbn. destruct (m0 k) as [v|]; [destruct (on_full p k v s)|destruct (on_empty p k s)]; reflexivity. }
        rewrite X in W. assert (R : m0 k = M k) by (rewrite <- (E k); unfold mixed; now rewrite Z).
        destruct (ref_at S _ _ k p w s R) as [R1 R2]. destruct (ref_process M k p w s) as [M1 s1] eqn:RM. cbn [fst snd] in *. rewrite R2 in W.
        destruct (IH (fst (ref_process m0 k p w s)) M1 ds c s1 m1 ds' s') as (I1 & I2 & I3 & I4 & I5 & I6); auto.
        * intros k' Hk. destruct (beqb_spec k k') as [<-|N]; auto. rewrite ref_other in Hk by exact N. auto.
        * intros k'. destruct (beqb_spec k k') as [<-|N]; [unfold mixed; rewrite Z; cbn; exact R1|].
          assert (M1 = fst (ref_process M k p w s)) as -> by (rewrite RM; reflexivity). rewrite ref_other by exact N. rewrite <- (E k'). unfold mixed. destruct (h k' =? 0); auto. now rewrite ref_other by exact N.
        * exact (conj I1 (conj I2 (conj I3 (conj I4 (conj I5 I6))))).  
      + assert (X : ref_process m0 k (delegator D (h k) p w) w (ds, c, s) = (m0, snd (delegate D (h k) p w k (ds, c, s)))).
        { unfold ref_process, call, delegator. cbn [on_full on_empty]. assert (F : fst (delegate D (h k) p w k (ds, c, s)) = ANoop). { unfold delegate. destruct (nth_error ds (h k)); auto. destruct (d_process D d k p w s) as [[? ?] ?]. reflexivity. }
          destruct (delegate D (h k) p w k (ds, c, s)) as [a st]. cbn in F. subst a. destruct (m0 k), w; reflexivity. }
        rewrite X in W. clear X. destruct O as [L A]. assert (exists d, nth_error ds (h k) = Some d) as [d Ed]. { destruct (nth_error ds (h k)) eqn:Q; [eauto|]. apply nth_error_None in Q. pose proof (h_lt k). lia. }
        unfold delegate in W. rewrite Ed in W. destruct (d_process D d k p w s) as [[c1 d1] s1] eqn:P. cbn [snd] in W.
        (* the status is final only if this one is SUCCESS: first weaken the induction *)
        assert (B : h k < length ds) by (apply nth_error_Some; congruence).
        destruct (code_eqb_spec c1 SUCCESS) as [->|Nc1].
        2:{ exfalso. eapply status_stays; [|exact W].  unfold both. destruct (code_eqb_spec c SUCCESS); congruence. }
        destruct (A _ _ NZ Ed) as [Od Kd]. destruct (d_process_ok D S d k p w s d1 s1 Od P) as (P1 & P2 & P3).
        assert (R : d_view D d k = M k). { rewrite <- (E k). unfold mixed, sh_view. destruct (Nat.eqb_spec (h k) 0); [congruence|]. now rewrite Ed. }
        destruct (ref_at S _ _ k p w s R) as [R1 R2]. destruct (ref_process M k p w s) as [M1 s2] eqn:RM. cbn [fst snd] in *. subst s1. rewrite R2 in W.
        destruct (IH m0 M1 (set_nth ds (h k) d1) (both c SUCCESS) s2 m1 ds' s') as (I1 & I2 & I3 & I4 & I5 & I6); auto.
        * split; [now rewrite set_nth_length|]. intros i d0 Ni Hi. destruct (Nat.eq_dec (h k) i) as [<-|N].
          -- rewrite set_nth_same in Hi by exact B. inversion Hi; subst d0. split; auto. intros k' Hk. rewrite P2 in Hk. destruct (beqb_spec k k') as [->|N]; auto. rewrite ref_other in Hk by exact N. auto.
          -- rewrite set_nth_other in Hi by exact N. auto.
        * intros k'. assert (M1 = fst (ref_process M k p w s)) as HM by (rewrite RM; reflexivity). unfold mixed. destruct (Nat.eqb_spec (h k') 0) as [Z|NZ'].
          -- rewrite HM, ref_other by congruence. rewrite <- (E k'). unfold mixed. now rewrite Z.
          -- unfold sh_view. destruct (Nat.eq_dec (h k) (h k')) as [Eh|N].
             ++ rewrite <- Eh, set_nth_same by exact B. rewrite P2. destruct (beqb_spec k k') as [<-|N]; [exact R1|]. rewrite HM, !ref_other by exact N. rewrite <- (E k'). unfold mixed, sh_view. destruct (Nat.eqb_spec (h k') 0); [congruence|]. now rewrite <- Eh, Ed.
             ++ rewrite set_nth_other by exact N. rewrite HM, ref_other by congruence. rewrite <- (E k'). unfold mixed, sh_view. destruct (Nat.eqb_spec (h k') 0); [congruence|]. reflexivity.
        * rewrite set_nth_other in I3 by exact NZ. unfold both in I1. destruct (code_eqb_spec c SUCCESS); [subst c|congruence]. exact (conj eq_refl (conj I2 (conj I3 (conj I4 (conj I5 I6))))).
  Qed.
  Lemma sh_multi_ok S ds (l : list (bytes * proc S)) w s ds' s' : sh_ok ds -> sh_multi D h ds l w s = (SUCCESS, ds', s') ->
    sh_ok ds' /\ same_map (sh_view ds') (fst (ref_multi (sh_view ds) l w s)) /\ s' = snd (ref_multi (sh_view ds) l w s).
  Proof.
    intros O W. unfold sh_multi in W. destruct ds as [|d0 r] eqn:Eds; [destruct O as [L _]; cbn in L; lia|]. rewrite <- Eds in *.
    destruct (d_multi D d0 (map (wrap D h w) l) w (ds, SUCCESS, s)) as [[c d1] [[ds1 c1] s1]] eqn:M. inversion W; subst ds' s'. destruct (both_ok _ _ H0) as [-> ->].
    assert (E0 : nth_error ds 0 = Some d0) by (rewrite Eds; reflexivity). destruct O as [L A]. destruct (A _ _ E0) as [O0 K0].
    destruct (d_multi_ok D _ _ _ _ _ _ _ O0 M) as (P1 & P2 & P3). destruct (ref_multi (d_view D d0) (map (wrap D h w) l) w (ds, SUCCESS, s)) as [m1 st1] eqn:R. cbn [fst snd] in P2, P3. subst st1.
    destruct (multi_mixed S l w (d_view D d0) (sh_view ds) ds SUCCESS s m1 ds1 s1) as (_ & [L1 A1] & N0 & K1 & V1 & V2); auto.
    - split; auto.
    - intros k. unfold mixed. destruct (Nat.eqb_spec (h k) 0) as [Z|]; auto. unfold sh_view. now rewrite Z, E0.
    - assert (B : 0 < length ds1) by lia. split; [|split; [|exact V2]].
      + split; [now rewrite set_nth_length|]. intros i d Hi. destruct i as [|i].
        * rewrite set_nth_same in Hi by exact B. inversion Hi; subst d. split; auto. intros k Hk. rewrite P2 in Hk. auto.
        * rewrite set_nth_other in Hi by discriminate. apply A1; auto.
      + intros k. rewrite <- V1. unfold mixed, sh_view at 1. destruct (Nat.eqb_spec (h k) 0) as [Z|NZ].
        * rewrite Z, set_nth_same by exact B. apply P2.
        * rewrite set_nth_other by congruence. reflexivity.
  Qed.

  (** * CompareExchangeMulti *)
  Notation holds m exp := (Forall (fun ke : bytes * sview => expected_holds m (fst ke) (snd ke)) exp).
  Lemma upd_ext : forall l m m', same_map m m' -> same_map (spec_updates m l) (spec_updates m' l).
  Proof.
    induction l as [|[k v] l IH]; intros m m' H; cbn [spec_updates]; [exact H|]. apply IH.
    intros k'. unfold spec_update. destruct v; unfold adel, aset; rewrite (H k'); reflexivity.
  Qed.
  Definition checked (m : amap) (k : bytes) (e : sview) : bool := match m k, e with Some v, VNull => false | Some v, VAny => true | Some v, VStr x => beqb x v | None, VNull => true | None, _ => false end.
  Lemma checked_holds m k e : checked m k e = true <-> expected_holds m k e.
  Proof.
    unfold checked, expected_holds. destruct (m k) as [v|], e as [| |x]; try (split; congruence). destruct (beqb_spec x v); split; congruence.
  Qed.
  Lemma checker_bad m k e nx ds c : c <> SUCCESS -> ref_process m k (checker D e nx) true (ds, c) = (m, (ds, c)).
  Proof. intros N. unfold ref_process, call, checker. cbn [on_full on_empty snd fst]. destruct (code_eqb_spec c SUCCESS); [congruence|]. cbn. destruct (m k); reflexivity. Qed.
  Lemma checker_run m k e nx ds : ref_process m k (checker D e nx) true (ds, SUCCESS) = (m, if checked m k e then go_next D nx (ds, SUCCESS) else (ds, INFEASIBLE_ERROR)).
  Proof.
    unfold ref_process, call, checker, checked. cbn [on_full on_empty snd fst]. destruct (m k) as [v|], e as [| |x]; cbn; auto. destruct (beqb x v); reflexivity.
  Qed.
  Lemma checks_bad m nx : forall exp ds c rest, c <> SUCCESS -> ref_multi m (last_checks D nx exp ++ rest) true (ds, c) = ref_multi m rest true (ds, c).
  Proof.
    induction exp as [|[k e] exp IH]; intros ds c rest N; cbn [last_checks app]; auto. destruct exp as [|ke exp].
    - cbn [app ref_multi]. now rewrite checker_bad.
    - cbn [app ref_multi]. rewrite checker_bad by exact N. apply IH; auto.
  Qed.
  Lemma checks_run m nx rest : forall exp ds, exp <> [] ->
    (holds m exp -> ref_multi m (last_checks D nx exp ++ rest) true (ds, SUCCESS) = ref_multi m rest true (go_next D nx (ds, SUCCESS))) /\
    (~ holds m exp -> ref_multi m (last_checks D nx exp ++ rest) true (ds, SUCCESS) = ref_multi m rest true (ds, INFEASIBLE_ERROR)).
  Proof.
    induction exp as [|[k e] exp IH]; intros ds N; [congruence|]. destruct exp as [|ke exp].
    - cbn [last_checks app ref_multi]. rewrite checker_run. split; intros H.
      + inversion H; subst. cbn in H2. apply checked_holds in H2. now rewrite H2.
      + destruct (checked m k e) eqn:C; auto. exfalso. apply H. constructor; auto. now apply checked_holds.
    - set (l := ke :: exp) in *. assert (X : last_checks D nx ((k, e) :: l) = (k, checker D e None) :: last_checks D nx l) by reflexivity. rewrite X. clear X. cbn [app ref_multi]. rewrite checker_run. cbn [go_next].
      destruct (IH ds) as [I1 I2]; [discriminate|]. destruct (checked m k e) eqn:C.
      + apply checked_holds in C. split; intros H; [apply I1; inversion H; auto|apply I2; intros F; apply H; constructor; auto].
      + split; intros H; [inversion H; subst; cbn in H2; apply checked_holds in H2; congruence|]. rewrite checks_bad by discriminate. reflexivity.
  Qed.
  Lemma setter_bad m k e nx ds c : c <> SUCCESS -> ref_process m k (setter D e nx) true (ds, c) = (m, (ds, c)).
  Proof. intros N. unfold ref_process, call, setter. cbn [on_full on_empty snd fst]. destruct (code_eqb_spec c SUCCESS); [congruence|]. cbn. destruct (m k); reflexivity. Qed.
  Lemma setter_run m k v nx ds : exists m', ref_process m k (setter D v nx) true (ds, SUCCESS) = (m', go_next D nx (ds, SUCCESS)) /\
    same_map m' (if code_eqb (snd (go_next D nx (ds, SUCCESS))) SUCCESS then spec_update m k v else m).
  Proof.
    unfold ref_process, call, setter. cbn [on_full on_empty snd fst]. change (code_eqb SUCCESS SUCCESS) with true. cbn [negb]. destruct (go_next D nx (ds, SUCCESS)) as [ds1 c1]. cbn [snd].
    destruct (code_eqb_spec c1 SUCCESS) as [->|Nc]; destruct (m k) as [x|] eqn:Em; cbn [negb act]; eexists; (split; [reflexivity|]); intros k'; try reflexivity.
    - destruct v; reflexivity.
    - destruct v; cbn; try reflexivity. unfold adel. destruct (beqb_spec k k'); congruence.
  Qed.
  Lemma sets_bad m : forall des ds c, c <> SUCCESS -> ref_multi m (map (fun kv => (fst kv, setter D (snd kv) None)) des) true (ds, c) = (m, (ds, c)).
  Proof. induction des as [|[k v] des IH]; intros ds c N; cbn [map ref_multi fst snd]; auto. rewrite setter_bad by exact N. auto. Qed.
  Lemma sets_run : forall des m ds, exists m', ref_multi m (map (fun kv => (fst kv, setter D (snd kv) None)) des) true (ds, SUCCESS) = (m', (ds, SUCCESS)) /\ same_map m' (spec_updates m des).
  Proof.
    induction des as [|[k v] des IH]; intros m ds; cbn [map ref_multi fst snd spec_updates]; [exists m; split; auto; intros k; auto|].
    destruct (setter_run m k v None ds) as (m1 & E1 & S1). rewrite E1. cbn in S1. cbn [go_next]. destruct (IH m1 ds) as (m2 & E2 & S2). exists m2. split; auto. intros k'. rewrite S2. apply upd_ext. exact S1.
  Qed.
  (** The effect of the processors of one command. *)
  Lemma command_run m nx exp des ds : (exp <> [] \/ des <> []) -> exists m' st', ref_multi m (params D nx exp des) true (ds, SUCCESS) = (m', st') /\
    (holds m exp -> st' = go_next D nx (ds, SUCCESS) /\ same_map m' (if code_eqb (snd st') SUCCESS then spec_updates m des else m)) /\
    (~ holds m exp -> st' = (ds, INFEASIBLE_ERROR) /\ same_map m' m).
  Proof.
    intros NE. unfold params. destruct exp as [|ke exp].
    - cbn [last_checks app]. destruct NE as [NE|NE]; [congruence|]. destruct des as [|[k v] des]; [congruence|]. cbn [first_sets ref_multi].
      destruct (setter_run m k v nx ds) as (m1 & E1 & S1). rewrite E1. destruct (go_next D nx (ds, SUCCESS)) as [ds1 c1]. cbn [snd] in *. destruct (code_eqb_spec c1 SUCCESS) as [->|Nc].
      + destruct (sets_run des m1 ds1) as (m2 & E2 & S2). rewrite E2. exists m2, (ds1, SUCCESS). split; auto. split; [|intros H; exfalso; apply H; constructor]. intros _. split; auto. cbn [snd spec_updates]. change (code_eqb SUCCESS SUCCESS) with true. intros k'. rewrite S2. now apply upd_ext.
      + rewrite sets_bad by exact Nc. exists m1, (ds1, c1). split; auto. split; [|intros H; exfalso; apply H; constructor]. intros _. split; auto. cbn [snd]. destruct (code_eqb_spec c1 SUCCESS); [congruence|exact S1].
    - set (E := ke :: exp) in *. destruct (checks_run m nx (first_sets D None des) E ds) as [C1 C2]; [discriminate|].
      assert (FS : first_sets D None des = map (fun kv => (fst kv, setter D (snd kv) None)) des) by (destruct des as [|[k v] des]; reflexivity). rewrite FS in *.
      assert (DH : holds m E \/ ~ holds m E). { clear. induction E as [|[k e] E IH]; [left; constructor|]. destruct (checked m k e) eqn:C; [|right; intros H; inversion H; subst; cbn in *; apply checked_holds in H2; congruence]. apply checked_holds in C. destruct IH; [left; constructor; auto|right; intros H1; inversion H1; auto]. }
      destruct DH as [H|H].
      + rewrite (C1 H). destruct (go_next D nx (ds, SUCCESS)) as [ds1 c1]. destruct (code_eqb_spec c1 SUCCESS) as [->|Nc].
        * destruct (sets_run des m ds1) as (m2 & E2 & S2). exists m2, (ds1, SUCCESS). split; auto. split; [|intros F; contradiction]. intros _. split; auto.
        * rewrite sets_bad by exact Nc. exists m, (ds1, c1). split; auto. split; [|intros F; contradiction]. intros _. split; auto. cbn [snd]. destruct (code_eqb_spec c1 SUCCESS); [congruence|]. intros k; auto.
      + rewrite (C2 H), sets_bad by discriminate. exists m, (ds, INFEASIBLE_ERROR). split; auto. split; [contradiction|]. intros _. split; auto. intros k; auto.
  Qed.

  Definition command : Type := nat * list (bytes * sview) * list (bytes * sview).
  (** Commands on shards from [lo] on, in ascending order, each with something to do. *)
  Fixpoint ordered (lo : nat) (l : list command) : Prop :=
    match l with [] => True | (i, exp, des) :: r => lo <= i /\ i < n /\ (exp <> [] \/ des <> []) /\ ordered (S i) r end.
  Lemma ordered_le : forall l a b, a <= b -> ordered b l -> ordered a l.
  Proof. intros [|[[i e] d] l] a b L H; cbn in *; auto. intuition lia. Qed.
  Definition d_oks (ds : shards) : Prop := length ds = n /\ forall i d, nth_error ds i = Some d -> d_ok D d.
  Definition v_at (ds : shards) (i : nat) : amap := fun k => match nth_error ds i with Some d => d_view D d k | None => None end.
  Definition all_hold (ds : shards) (l : list command) : Prop := forall i exp des, In (i, exp, des) l -> holds (v_at ds i) exp.
  (** Shards before the first command are left alone; what a success does, what INFEASIBLE_ERROR means if no call on a shard fails. *)
  Definition done (ds : shards) (l : list command) (ds' : shards) : Prop :=
    (forall i exp des, In (i, exp, des) l -> same_map (v_at ds' i) (spec_updates (v_at ds i) des)) /\
    (forall i, ~ In i (map (fun c => fst (fst c)) l) -> same_map (v_at ds' i) (v_at ds i)).
  Lemma ordered_in : forall l lo i exp des, ordered lo l -> In (i, exp, des) l -> lo <= i.
  Proof. induction l as [|[[j e] d] l IH]; intros lo i exp des O H; [destruct H|]. cbn in O. destruct H as [H|H]; [inversion H; subst; tauto|]. destruct O as (? & ? & ? & O). specialize (IH _ _ _ _ O H). lia. Qed.
  Lemma holds_ext m m' exp : same_map m m' -> holds m exp -> holds m' exp.
  Proof. intros E H. eapply Forall_impl; [|exact H]. intros [k e]. unfold expected_holds. cbn. now rewrite (E k). Qed.
  Lemma v_at_set ds i d j : i < length ds -> same_map (v_at (set_nth ds i d) j) (if j =? i then d_view D d else v_at ds j).
  Proof. intros B k. unfold v_at. destruct (Nat.eqb_spec j i) as [->|N]; [now rewrite set_nth_same|]. now rewrite set_nth_other by congruence. Qed.
  Lemma oks_set ds i d : d_oks ds -> d_ok D d -> d_oks (set_nth ds i d).
  Proof.
    intros [L A] O. split; [now rewrite set_nth_length|]. intros j d0 H. destruct (Nat.eq_dec i j) as [<-|N]; [|rewrite set_nth_other in H by exact N; eauto].
    assert (i < length ds). { rewrite <- (set_nth_length _ ds i d). apply nth_error_Some. congruence. } rewrite set_nth_same in H by auto. now inversion H; subst.
  Qed.
  Definition next_of (l : list command) : option (cst D -> code * cst D) := match l with [] => None | _ => Some (run_commands D l) end.
  Lemma run_cons i exp des l st : run_commands D ((i, exp, des) :: l) st =
    match nth_error (fst st) i with
    | None => (SYSTEM_ERROR, st)
    | Some d => let '(c, d', st1) := d_multi D d (params D (next_of l) exp des) true st in (c, (set_nth (fst st1) i d', snd st1))
    end.
  Proof. cbn [run_commands]. destruct (nth_error (fst st) i); auto. change (match l with [] => None | _ => Some (run_commands D l) end) with (next_of l). destruct (d_multi (S:=cst D) D d (params D (next_of l) exp des) true st) as [[c d'] [ds' c']]. reflexivity. Qed.
  Lemma run_success : forall l lo ds ds', l <> [] -> ordered lo l -> d_oks ds -> run_commands D l (ds, SUCCESS) = (SUCCESS, (ds', SUCCESS)) ->
    d_oks ds' /\ (forall i, i < lo -> nth_error ds' i = nth_error ds i) /\ all_hold ds l /\ done ds l ds'.
  Proof.
    induction l as [|[[i exp] des] l IH]; intros lo ds ds' NL O A W; [congruence|]. clear NL. cbn [ordered] in O. destruct O as (O1 & O2 & O3 & O4). rewrite run_cons in W. cbn [fst] in W.
    destruct A as [L A]. destruct (nth_error ds i) as [d|] eqn:Ei; [|apply nth_error_None in Ei; lia].
    set (nx := next_of l) in *.
    destruct (d_multi (S:=cst D) D d (params D nx exp des) true (ds, SUCCESS)) as [[c1 d1] [ds1 c2]] eqn:M. cbn [fst snd] in W. injection W as E1 E2 E3. subst c1 c2 ds'.
    destruct (d_multi_ok D _ _ _ _ _ _ _ (A _ _ Ei) M) as (P1 & P2 & P3). destruct (command_run (d_view D d) nx exp des ds O3) as (m' & st' & R & C1 & C2). rewrite R in P2, P3. cbn [fst snd] in P2, P3. subst st'.
    assert (DH : holds (d_view D d) exp \/ ~ holds (d_view D d) exp). { clear. induction exp as [|[k e] E IH]; [left; constructor|]. destruct (checked (d_view D d) k e) eqn:C; [|right; intros H; inversion H; subst; cbn in *; apply checked_holds in H2; congruence]. apply checked_holds in C. destruct IH; [left; constructor; auto|right; intros H1; inversion H1; auto]. }
    destruct DH as [H|H]; [|destruct (C2 H) as [X _]; inversion X]. destruct (C1 H) as [X Y]. clear C1 C2. cbn [snd] in Y. change (code_eqb SUCCESS SUCCESS) with true in Y. cbn iota in Y.
    assert (VI : same_map (v_at ds i) (d_view D d)) by (intros k; unfold v_at; now rewrite Ei).
    assert (Q : d_oks ds1 /\ (forall j, j <= i -> nth_error ds1 j = nth_error ds j) /\ all_hold ds l /\ done ds l ds1).
    { unfold nx, next_of, go_next in X. destruct l as [|c l].
      - inversion X; subst. split; [split; auto|]. split; auto. split; [intros ? ? ? []|]. split; [intros ? ? ? []|]. intros j _ k; auto.
      - destruct (run_commands D (c :: l) (ds, SUCCESS)) as [cr [dsr cr']] eqn:Rn. inversion X; subst ds1. symmetry in H2. destruct (both_ok _ _ H2) as [-> ->].
        destruct (IH (S i) ds dsr) as (I1 & I2 & I3 & I4); auto; [discriminate|split; auto|]. split; auto. split; auto. intros j Hj. apply I2. lia. }
    destruct Q as (Q1 & Q2 & Q3 & Q4). assert (B : i < length ds1) by (rewrite (proj1 Q1); exact O2).
    split; [apply oks_set; auto|]. split; [|split].
    - intros j Hj. rewrite set_nth_other by lia. apply Q2. lia.
    - intros j e0 d0 [Hj|Hj]; [inversion Hj; subst|apply (Q3 _ _ _ Hj)]. eapply holds_ext; [|exact H]. intros k. symmetry. apply VI.
    - split.
      + intros j e0 d0 [Hj|Hj].
        * inversion Hj; subst. intros k. rewrite v_at_set by exact B. rewrite Nat.eqb_refl, (P2 k), (Y k). apply upd_ext. intros k'. symmetry. apply VI.
        * assert (S i <= j) by (eapply ordered_in; eauto). intros k. rewrite v_at_set by exact B. destruct (Nat.eqb_spec j i); [lia|]. apply (proj1 Q4 _ _ _ Hj).
      + intros j Hj k. cbn in Hj. rewrite v_at_set by exact B. destruct (Nat.eqb_spec j i) as [->|N]; [exfalso; auto|]. apply (proj2 Q4). auto.
  Qed.
  (** No call on a shard fails. *)
  Definition multi_succeeds : Prop := forall S d (l : list (bytes * proc S)) w s, d_ok D d -> exists d' s', d_multi D d l w s = (SUCCESS, d', s').
  Lemma run_total : multi_succeeds -> forall l lo ds, l <> [] -> ordered lo l -> d_oks ds -> exists ds' c', run_commands D l (ds, SUCCESS) = (SUCCESS, (ds', c')) /\
    (c' = SUCCESS \/ c' = INFEASIBLE_ERROR /\ d_oks ds' /\ (forall i, i < lo -> nth_error ds' i = nth_error ds i) /\ ~ all_hold ds l /\ forall i, same_map (v_at ds' i) (v_at ds i)).
  Proof.
    intros MS. induction l as [|[[i exp] des] l IH]; intros lo ds NL O A; [congruence|]. clear NL. cbn [ordered] in O. destruct O as (O1 & O2 & O3 & O4). rewrite run_cons. cbn [fst].
    destruct A as [L A]. destruct (nth_error ds i) as [d|] eqn:Ei; [|apply nth_error_None in Ei; lia].
    set (nx := next_of l) in *.
    destruct (MS _ d (params D nx exp des) true (ds, SUCCESS) (A _ _ Ei)) as (d1 & [ds1 c2] & M). rewrite M. cbn [fst snd]. exists (set_nth ds1 i d1), c2. split; auto.
    destruct (d_multi_ok D _ _ _ _ _ _ _ (A _ _ Ei) M) as (P1 & P2 & P3). destruct (command_run (d_view D d) nx exp des ds O3) as (m' & st' & R & C1 & C2). rewrite R in P2, P3. cbn [fst snd] in P2, P3. subst st'.
    assert (VI : same_map (v_at ds i) (d_view D d)) by (intros k; unfold v_at; now rewrite Ei).
    assert (DH : holds (d_view D d) exp \/ ~ holds (d_view D d) exp). { clear. induction exp as [|[k e] E IH]; [left; constructor|]. destruct (checked (d_view D d) k e) eqn:C; [|right; intros H; inversion H; subst; cbn in *; apply checked_holds in H2; congruence]. apply checked_holds in C. destruct IH; [left; constructor; auto|right; intros H1; inversion H1; auto]. }
    assert (KEEP : forall ds2, d_oks ds2 -> (forall j, j <= i -> nth_error ds2 j = nth_error ds j) -> same_map (d_view D d1) (d_view D d) -> (forall j, same_map (v_at ds2 j) (v_at ds j)) ->
      d_oks (set_nth ds2 i d1) /\ (forall j, j < lo -> nth_error (set_nth ds2 i d1) j = nth_error ds j) /\ forall j, same_map (v_at (set_nth ds2 i d1) j) (v_at ds j)).
    { intros ds2 K1 K2 K3 K4. split; [apply oks_set; auto|]. split.
      - intros j Hj. rewrite set_nth_other by lia. apply K2. lia.
      - intros j k. rewrite v_at_set by (rewrite (proj1 K1); exact O2). destruct (Nat.eqb_spec j i) as [->|N]; [rewrite K3; symmetry; apply VI|apply K4]. }
    destruct DH as [H|H].
    - destruct (C1 H) as [X Y]. cbn [snd] in Y. unfold nx, next_of, go_next in X. destruct l as [|c l]; [inversion X; auto|].
      destruct (IH (S i) ds) as (dsr & cr & Rn & Rc); auto; [discriminate|split; auto|]. rewrite Rn in X. inversion X; subst ds1 c2. destruct Rc as [->|(-> & R1 & R2 & R3 & R4)]; [auto|]. right. cbn in Y. cbn.
      destruct (KEEP dsr) as (K1 & K2 & K3); auto; [intros j Hj; apply R2; lia|intros k; rewrite (P2 k); apply Y|]. split; auto. split; auto. split; auto. split; auto. intros F. apply R3. intros j e0 d0 Hj. apply (F j e0 d0). now right.
    - destruct (C2 H) as [X Y]. inversion X; subst. right. destruct (KEEP ds) as (K1 & K2 & K3); auto; [split; auto|intros k; rewrite (P2 k); apply Y|intros j k; auto|].
      split; auto. split; auto. split; auto. split; auto. intros F. apply H. eapply holds_ext; [exact VI|]. apply (F i exp des). now left.
  Qed.
  (** * From commands to the whole *)
  Lemma commands_in m exp des i e d : In (i, e, d) (commands h m exp des) <-> i < m /\ e = on_shard h i exp /\ d = on_shard h i des /\ (e <> [] \/ d <> []).
  Proof.
    unfold commands. rewrite filter_In, in_map_iff. split.
    - intros [(j & E & Hj) F]. inversion E; subst. apply in_seq in Hj. split; [lia|]. split; auto. split; auto. destruct (on_shard h i exp); [|left; discriminate]. destruct (on_shard h i des); [discriminate|right; discriminate].
    - intros (Hi & -> & -> & N). split; [exists i; split; auto; apply in_seq; lia|]. destruct (on_shard h i exp), (on_shard h i des); auto. destruct N; congruence.
  Qed.
  Lemma commands_ordered exp des : ordered 0 (commands h n exp des).
  Proof.
    unfold commands. assert (G : forall m lo, lo + m <= n -> ordered lo (filter (fun c : command => match c with (_, [], []) => false | _ => true end) (map (fun i => (i, on_shard h i exp, on_shard h i des)) (seq lo m)))).
    { induction m as [|m IH]; intros lo B; cbn [seq map filter]; [exact I|]. destruct (on_shard h lo exp) as [|a e] eqn:E1; [destruct (on_shard h lo des) as [|b d] eqn:E2|].
      - apply (ordered_le _ lo (S lo)); [lia|]. apply IH. lia.
      - cbn [ordered]. repeat split; try lia; [right; discriminate|]. apply IH. lia.
      - cbn [ordered]. repeat split; try lia; [left; discriminate|]. apply IH. lia. }
    apply (G n 0). lia.
  Qed.
  Lemma hold_shards ds exp des : length ds = n -> all_hold ds (commands h n exp des) <-> holds (sh_view ds) exp.
  Proof.
    intros L. split.
    - intros H. apply Forall_forall. intros [k e] Hk. cbn. assert (I0 : In (k, e) (on_shard h (h k) exp)) by (unfold on_shard; apply filter_In; split; auto; cbn; apply Nat.eqb_refl).
      assert (Q : In (h k, on_shard h (h k) exp, on_shard h (h k) des) (commands h n exp des)). { apply commands_in. split; [apply h_lt|]. split; auto. split; auto. left. intros X. rewrite X in I0. destruct I0. }
      specialize (H _ _ _ Q). rewrite Forall_forall in H. specialize (H _ I0). cbn in H. exact H.
    - intros H i e d Hc. apply commands_in in Hc. destruct Hc as (_ & -> & _ & _). apply Forall_forall. intros [k v] Hk. apply filter_In in Hk. destruct Hk as [Hk E]. cbn in E. apply Nat.eqb_eq in E. subst i. rewrite Forall_forall in H. exact (H _ Hk).
  Qed.
  Lemma updates_shard : forall des m k, spec_updates m des k = spec_updates m (on_shard h (h k) des) k.
  Proof.
    assert (G : forall des m m' k, m k = m' k -> spec_updates m des k = spec_updates m' (on_shard h (h k) des) k).
    { induction des as [|[k0 v] des IH]; intros m m' k E; cbn [on_shard filter spec_updates fst]; auto. destruct (Nat.eqb_spec (h k0) (h k)) as [Eh|N].
      - cbn [spec_updates]. apply IH. unfold spec_update. destruct v; unfold adel, aset; now rewrite E.
      - apply IH. rewrite <- E. unfold spec_update. destruct v; unfold adel, aset; destruct (beqb_spec k0 k); congruence. }
    auto.
  Qed.
  Lemma updates_at : forall des m m' k, m k = m' k -> spec_updates m des k = spec_updates m' des k.
  Proof. induction des as [|[k0 v] des IH]; intros m m' k E; cbn; auto. apply IH. unfold spec_update. destruct v; unfold adel, aset; now rewrite E. Qed.
  Lemma done_shards ds ds' exp des : done ds (commands h n exp des) ds' -> same_map (sh_view ds') (spec_updates (sh_view ds) des).
  Proof.
    intros [D1 D2] k. rewrite updates_shard. change (sh_view ds' k) with (v_at ds' (h k) k).
    destruct (on_shard h (h k) exp) as [|a e] eqn:E1; [destruct (on_shard h (h k) des) as [|b d] eqn:E2|].
    - cbn. rewrite D2; auto. intros Hi. apply in_map_iff in Hi. destruct Hi as ([[i e] d] & Ei & Hi). cbn in Ei. subst i. apply commands_in in Hi. destruct Hi as (_ & -> & -> & [N|N]); congruence.
    - rewrite (D1 (h k) [] (b :: d)); [now apply updates_at|]. apply commands_in. rewrite E1, E2. repeat split; auto. right. discriminate.
    - rewrite (D1 (h k) (a :: e) (on_shard h (h k) des)); [now apply updates_at|]. apply commands_in. rewrite E1. repeat split; auto. left. discriminate.
  Qed.
  Lemma keys_kept ds ds' : sh_ok ds -> d_oks ds' -> (forall i k, v_at ds' i k <> None -> v_at ds i k <> None \/ h k = i) -> sh_ok ds'.
  Proof.
    intros [L A] [L' A'] K. split; auto. intros i d Hi. split; eauto. intros k Hk. destruct (K i k) as [Q|Q]; auto; [unfold v_at; now rewrite Hi|]. unfold v_at in Q. destruct (nth_error ds i) as [d0|] eqn:E; [|congruence]. apply (proj2 (A _ _ E)), Q.
  Qed.
  Lemma updates_other : forall des m k, ~ In k (map fst des) -> spec_updates m des k = m k.
  Proof. induction des as [|[k0 v] des IH]; intros m k N; cbn; auto. cbn in N. rewrite IH by tauto. unfold spec_update. destruct v; unfold adel, aset; destruct (beqb_spec k0 k); auto; subst; tauto. Qed.
  Lemma updates_keys i des m k : spec_updates m (on_shard h i des) k <> None -> m k <> None \/ h k = i.
  Proof.
    intros H. destruct (Nat.eq_dec (h k) i) as [|N]; auto. left. rewrite updates_other in H; auto. intros Hi. apply in_map_iff in Hi. destruct Hi as ([k0 v] & E & Hi). cbn in E. subst k0. unfold on_shard in Hi. apply filter_In in Hi. destruct Hi as [_ Hi]. cbn in Hi. apply Nat.eqb_eq in Hi. congruence.
  Qed.
  Lemma sh_cas_success ds exp des ds' : sh_ok ds -> sh_cas_multi D h ds exp des = (SUCCESS, ds') ->
    sh_ok ds' /\ holds (sh_view ds) exp /\ same_map (sh_view ds') (spec_updates (sh_view ds) des).
  Proof.
    intros O W. unfold sh_cas_multi in W. rewrite (proj1 O) in W. assert (OK : d_oks ds) by (split; [apply O|intros i d Hi; apply (proj2 O) in Hi; tauto]).
    pose proof (commands_ordered exp des) as CO. pose proof (hold_shards ds exp des (proj1 O)) as HS. pose proof (done_shards ds ds' exp des) as DS. pose proof (fun i e d => commands_in n exp des i e d) as CI. destruct (commands h n exp des) as [|c l] eqn:EC.
    - inversion W; subst. split; auto. split; [apply HS; intros ? ? ? []|]. apply DS. split; [intros ? ? ? []|intros i _ k; auto].
    - destruct (run_commands D (c :: l) (ds, SUCCESS)) as [c1 [ds1 c2]] eqn:R. inversion W; subst ds1. destruct (both_ok _ _ H0) as [-> ->].
      destruct (run_success (c :: l) 0 ds ds') as (R1 & R2 & R3 & R4); auto; [discriminate|]. split; [|split; [apply HS, R3|apply DS, R4]].
      apply (keys_kept ds); auto. intros i k Hk. destruct (in_dec Nat.eq_dec i (map (fun c => fst (fst c)) (c :: l))) as [Hi|Hi].
      + apply in_map_iff in Hi. destruct Hi as ([[j e] d] & E & Hi). cbn in E. subst j. rewrite (proj1 R4 _ _ _ Hi) in Hk. apply CI in Hi. destruct Hi as (_ & _ & -> & _). apply (updates_keys _ des). exact Hk.
      + left. now rewrite (proj2 R4 _ Hi) in Hk.
  Qed.
  Lemma sh_cas_total ds exp des : multi_succeeds -> sh_ok ds -> exists c ds', sh_cas_multi D h ds exp des = (c, ds') /\
    (c = SUCCESS \/ c = INFEASIBLE_ERROR /\ sh_ok ds' /\ ~ holds (sh_view ds) exp /\ same_map (sh_view ds') (sh_view ds)).
  Proof.
    intros MS O. unfold sh_cas_multi. rewrite (proj1 O). assert (OK : d_oks ds) by (split; [apply O|intros i d Hi; apply (proj2 O) in Hi; tauto]).
    pose proof (commands_ordered exp des) as CO. pose proof (hold_shards ds exp des (proj1 O)) as HS. destruct (commands h n exp des) as [|c l] eqn:EC; [eauto|].
    destruct (run_total MS (c :: l) 0 ds) as (ds' & c' & R & Rc); auto; [discriminate|]. rewrite R. exists (both SUCCESS c'), ds'. split; auto. rewrite both_l. destruct Rc as [->|(-> & R1 & R2 & R3 & R4)]; auto. right. split; auto. split; [|split].
    - apply (keys_kept ds); auto. intros i k Hk. left. now rewrite <- R4.
    - intros F. apply R3, HS, F.
    - intros k. apply (R4 (h k)).
  Qed.
  (** * Count *)
  Lemma union_count : forall ds cs, (forall i d, nth_error ds i = Some d -> forall k, d_view D d k <> None -> h k = i) -> length ds = n ->
    Forall2 (fun d c => acount (d_view D d) c) ds cs -> acount (sh_view ds) (list_sum cs).
  Proof.
    intros ds cs K L F. assert (G : forall ds0 cs0 lo, Forall2 (fun d c => acount (d_view D d) c) ds0 cs0 -> (forall i d, nth_error ds0 i = Some d -> nth_error ds (lo + i) = Some d) ->
      exists ks, NoDup ks /\ length ks = list_sum cs0 /\ forall k, In k ks <-> lo <= h k < lo + length ds0 /\ sh_view ds k <> None).
    { intros ds0 cs0 lo F0. revert lo. induction F0 as [|d c ds0 cs0 (ks & N & Lk & Hk) F0 IH]; intros lo A.
      - exists []. split; [constructor|]. split; auto. intros k. cbn. split; [tauto|lia].
      - destruct (IH (S lo)) as (ks2 & N2 & L2 & H2). { intros i d0 Hi. replace (S lo + i) with (lo + S i) by lia. apply A. exact Hi. }
        pose proof (A 0 d eq_refl) as A0. rewrite Nat.add_0_r in A0. exists (ks ++ ks2). split; [|split].
        + assert (DJ : forall k, In k ks -> ~ In k ks2). { intros k I1 I2. apply H2 in I2. apply Hk in I1. apply (K _ _ A0) in I1. lia. }
          clear - N N2 DJ. induction N as [|a l Na N IH]; cbn; auto. constructor; [rewrite in_app_iff; intros [W|W]; [auto|apply (DJ a); [now left|auto]]|]. apply IH. intros k I1. apply DJ. now right.
        + rewrite app_length, Lk, L2. reflexivity.
        + intros k. rewrite in_app_iff, Hk, H2. cbn [length]. unfold sh_view. split.
          * intros [W|W]; [|split; [lia|tauto]]. pose proof (K _ _ A0 k W) as E. rewrite E, A0. split; [lia|auto].
          * intros [W1 W2]. destruct (Nat.eq_dec (h k) lo) as [E|E]; [left; rewrite E, A0 in W2; auto|right; split; [lia|auto]]. }
    destruct (G ds cs 0 F) as (ks & N & Lk & Hk); auto. exists ks. split; auto. split; auto. intros k. rewrite Hk. rewrite L. pose proof (h_lt k). split; [tauto|intros W; split; [lia|auto]].
  Qed.
  Lemma count_sum count : forall ds acc t, sh_count D count ds acc = (SUCCESS, t) -> exists cs, Forall2 (fun d c => count d = (SUCCESS, c)) ds cs /\ t = acc + list_sum cs.
  Proof.
    induction ds as [|d ds IH]; intros acc t W; cbn in W; [inversion W; exists []; cbn; split; [constructor|lia]|]. destruct (count d) as [c m] eqn:E. destruct (code_eqb_spec c SUCCESS) as [->|N]; [|inversion W; congruence].
    destruct (IH _ _ W) as (cs & F & ->). exists (m :: cs). split; [constructor; auto|change (list_sum (m :: cs)) with (m + list_sum cs); lia].
  Qed.

  (** * ProcessFirst *)
  Variable peek : d_st D -> code * bytes * bytes.
  Variable cmp : bytes -> bytes -> comparison.
  (** First and Get of an iterator find a record, if there is one. *)
  Definition peek_good : Prop := forall d c k v, d_ok D d -> peek d = (c, k, v) ->
    (c = SUCCESS -> d_view D d k = Some v) /\ ((forall k', d_view D d k' = None) -> c <> SUCCESS).
  Hypothesis peek_ok : peek_good.
  Lemma peek_all_some : forall ds best k, (forall j d, nth_error ds j = Some d -> d_ok D d) ->
    peek_all D peek cmp ds best = (SUCCESS, Some k) -> best = Some k \/ exists j d v, nth_error ds j = Some d /\ d_view D d k = Some v.
  Proof.
    induction ds as [|d ds IH]; intros best k O W; cbn in W; [inversion W; auto|].
    assert (O' : forall j d0, nth_error ds j = Some d0 -> d_ok D d0) by (intros j d0 Hj; apply (O (Datatypes.S j)); exact Hj).
    destruct (peek d) as [[c k1] v1] eqn:P. destruct (peek_ok d c k1 v1 (O 0 d eq_refl) P) as [P1 _]. destruct (code_eqb_spec c SUCCESS) as [->|N].
    - specialize (P1 eq_refl). apply IH in W; auto. destruct W as [W|(j & d1 & v & W1 & W2)]; [|right; exists (Datatypes.S j), d1, v; auto].
      assert (Q : best = Some k \/ k1 = k). { destruct best as [b|]; [destruct (cmp k1 b)|]; inversion W; auto. }
      destruct Q as [Q|Q]; [auto|subst k1]. right. exists 0, d, v1. auto.
    - destruct (code_eqb_spec c NOT_FOUND_ERROR); [|inversion W; congruence]. apply IH in W; auto. destruct W as [W|(j & d1 & v & W1 & W2)]; [auto|right; exists (Datatypes.S j), d1, v; auto].
  Qed.
  Lemma sh_first_ok S ds (p : proc S) w s c ds' s' : sh_ok ds -> sh_first D h peek cmp ds p w s = (c, ds', s') ->
    (c = SUCCESS -> sh_ok ds' /\ exists k v, sh_view ds k = Some v /\
       same_map (sh_view ds') (if w then act (sh_view ds) k (fst (on_full p k v s)) else sh_view ds) /\ s' = snd (on_full p k v s)) /\
    ((forall k, sh_view ds k = None) -> c <> SUCCESS /\ ds' = ds /\ s' = s).
  Proof.
    intros O W. unfold sh_first in W. destruct (peek_all D peek cmp ds None) as [c0 b] eqn:P.
    assert (A : forall j d, nth_error ds j = Some d -> d_ok D d) by (intros j d Hj; apply (proj2 O) in Hj; tauto).
    destruct (code_eqb_spec c0 SUCCESS) as [->|N].
    - destruct b as [k|].
      + destruct (peek_all_some ds None k A P) as [Q|(j & d & v & Hj & Hv)]; [discriminate|].
        assert (V : sh_view ds k = Some v). { assert (h k = j) as <- by (apply (proj2 (proj2 O _ _ Hj)); congruence). unfold sh_view. now rewrite Hj. }
        split; [|intros Z; rewrite Z in V; discriminate]. intros ->. destruct (sh_process_ok S ds k p w s ds' s' O W) as (P1 & P2 & P3). split; auto. exists k, v. split; auto.
        unfold ref_process, call in P2, P3. rewrite V in P2, P3. destruct (on_full p k v s) as [a s1]. cbn in *. auto.
      + inversion W; subst. split; [discriminate|]. intros _. split; [discriminate|auto].
    - assert (W' : (c0, ds, s) = (c, ds', s')) by (destruct c0; try exact W; congruence). inversion W'; subst. split; [congruence|auto].
  Qed.
End Shards.
