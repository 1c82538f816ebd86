(** C35: ShardDBM does what one database would.  Source: /repo/tkrzw_dbm_shard.cc.
    [h] is any function from keys to the numbers of the shards, in particular SecondaryHash. *)
From Coq Require Import List NArith Bool Arith Lia Permutation Sorting.Sorted.
Import ListNotations.
From Verif Require Import Bytes BytesOrder DbmModel DbmProps StatusModel HashUtilModel OmapSpec OmapHist OmapFacts ShardModel ShardProofs ShardSpec ShardIter.
Local Open Scope nat_scope.

(** * Operations on records *)
(** The shards together are a database in the sense of DbmModel.v: all of C09 and C10 hold of it. *)
Definition shard_dbm (D : dbm) (h : bytes -> nat) (n : nat) (n_pos : 0 < n) (h_lt : forall k, h k < n)
  (peek : d_st D -> code * bytes * bytes) (cmp : bytes -> bytes -> comparison) (peek_ok : peek_good D peek) : dbm.
Proof.
  refine (mkDbm (list (d_st D)) (sh_ok D h n) (sh_view D h) (@sh_process D h) (@sh_multi D h) (fun S => @sh_first D h peek cmp S) _ _ _).
  - intros S d k p w s d' s' O W. eapply sh_process_ok; eauto.
  - intros S d l w s d' s' O W. eapply sh_multi_ok; eauto.
  - intros S d p w s c d' s' O W. eapply sh_first_ok; eauto.
Defined.

(** A history of calls of Process and ProcessMulti, through which the other operations on records are defined. *)
Inductive rcall (S : Type) := RProcess (k : bytes) (p : proc S) (w : bool) | RMulti (l : list (bytes * proc S)) (w : bool).
Arguments RProcess {S}. Arguments RMulti {S}.
Fixpoint play (D : dbm) {S} (cs : list (rcall S)) (d : d_st D) (s : S) : list code * d_st D * S :=
  match cs with
  | [] => ([], d, s)
  | c :: r =>
      let '(cd, d', s') := match c with RProcess k p w => d_process D d k p w s | RMulti l w => d_multi D d l w s end in
      let '(cds, d2, s2) := play D r d' s' in (cd :: cds, d2, s2)
  end.
Lemma play_same : forall (D1 D2 : dbm) S (cs : list (rcall S)) d1 d2 s cds1 d1' s1 cds2 d2' s2, d_ok D1 d1 -> d_ok D2 d2 -> same_map (d_view D1 d1) (d_view D2 d2) ->
  play D1 cs d1 s = (cds1, d1', s1) -> play D2 cs d2 s = (cds2, d2', s2) -> Forall (eq SUCCESS) cds1 -> Forall (eq SUCCESS) cds2 ->
  d_ok D1 d1' /\ s1 = s2 /\ same_map (d_view D1 d1') (d_view D2 d2').
Proof.
  induction cs as [|c cs IH]; intros d1 d2 s cds1 d1' s1 cds2 d2' s2 O1 O2 E P1 P2 A1 A2; cbn in P1, P2.
  - inversion P1; inversion P2; subst. auto.
  - destruct (match c with RProcess k p w => d_process D1 d1 k p w s | RMulti l w => d_multi D1 d1 l w s end) as [[c1 e1] t1] eqn:Q1.
    destruct (match c with RProcess k p w => d_process D2 d2 k p w s | RMulti l w => d_multi D2 d2 l w s end) as [[c2 e2] t2] eqn:Q2.
    destruct (play D1 cs e1 t1) as [[l1 f1] u1] eqn:R1. destruct (play D2 cs e2 t2) as [[l2 f2] u2] eqn:R2. inversion P1; inversion P2; subst. inversion A1 as [|? ? H1 H2]; inversion A2 as [|? ? H3 H4]; subst.
    assert (Q : d_ok D1 e1 /\ d_ok D2 e2 /\ t1 = t2 /\ same_map (d_view D1 e1) (d_view D2 e2)).
    { destruct c as [k p w|l w].
      - destruct (d_process_ok D1 _ _ _ _ _ _ _ _ O1 Q1) as (X1 & X2 & X3). destruct (d_process_ok D2 _ _ _ _ _ _ _ _ O2 Q2) as (Y1 & Y2 & Y3). destruct (ref_process_ext _ _ _ k p w s E) as [E1 E2].
        split; auto. split; auto. split; [congruence|]. intros k'. rewrite (X2 k'), (Y2 k'). apply E1.
      - destruct (d_multi_ok D1 _ _ _ _ _ _ _ O1 Q1) as (X1 & X2 & X3). destruct (d_multi_ok D2 _ _ _ _ _ _ _ O2 Q2) as (Y1 & Y2 & Y3). destruct (ref_multi_ext _ l w _ _ s E) as [E1 E2].
        split; auto. split; auto. split; [congruence|]. intros k'. rewrite (X2 k'), (Y2 k'). apply E1. }
    destruct Q as (Z1 & Z2 & <- & Z3). eapply IH; eauto.
Qed.

Section Records.
  Variable D : dbm.
  Variable h : bytes -> nat.
  Variable n : nat.
  Hypothesis n_pos : 0 < n.
  Hypothesis h_lt : forall k, h k < n.
  Variable peek : d_st D -> code * bytes * bytes.
  Variable cmp : bytes -> bytes -> comparison.
  Hypothesis peek_ok : peek_good D peek.
  Notation SD := (shard_dbm D h n n_pos h_lt peek cmp peek_ok).
  (** Process calls the processor with the record the shards hold together under the key, and does what it says to that record alone. *)
  Theorem C35_process : forall S ds k (p : proc S) w s ds' s', sh_ok D h n ds -> sh_process D h ds k p w s = (SUCCESS, ds', s') ->
    sh_ok D h n ds' /\ same_map (sh_view D h ds') (fst (ref_process (sh_view D h ds) k p w s)) /\ s' = snd (ref_process (sh_view D h ds) k p w s).
  Proof. intros S ds k p w s ds' s' O W. exact (d_process_ok SD S ds k p w s ds' s' O W). Qed.
  (** ProcessMulti calls the processors in the order given, though their records are in several shards. *)
  Theorem C35_process_multi : forall S ds (l : list (bytes * proc S)) w s ds' s', sh_ok D h n ds -> sh_multi D h ds l w s = (SUCCESS, ds', s') ->
    sh_ok D h n ds' /\ same_map (sh_view D h ds') (fst (ref_multi (sh_view D h ds) l w s)) /\ s' = snd (ref_multi (sh_view D h ds) l w s).
  Proof. intros S ds l w s ds' s' O W. exact (d_multi_ok SD S ds l w s ds' s' O W). Qed.
  (** ProcessFirst is given some record, unless there is none at all. *)
  Theorem C35_process_first : forall S ds (p : proc S) w s c ds' s', sh_ok D h n ds -> sh_first D h peek cmp ds p w s = (c, ds', s') ->
    (c = SUCCESS -> sh_ok D h n ds' /\ exists k v, sh_view D h ds k = Some v /\
       same_map (sh_view D h ds') (if w then act (sh_view D h ds) k (fst (on_full p k v s)) else sh_view D h ds) /\ s' = snd (on_full p k v s)) /\
    ((forall k, sh_view D h ds k = None) -> c <> SUCCESS /\ ds' = ds /\ s' = s).
  Proof. intros S ds p w s c ds' s' O W. exact (d_first_ok SD S ds p w s c ds' s' O W). Qed.
  (** Get, Set, Remove and Append, which ShardDBM passes on as they are, are those defined through its own Process. *)
  Theorem C35_forwarded : forall ds k v o d, (exists e, nth_error ds (h k) = Some e) ->
    sh_get D h ds k o = op_get SD ds k o /\ sh_set D h ds k v true o = op_set SD ds k v true o /\ sh_set D h ds k v false o = op_set SD ds k v false o /\
    sh_remove D h ds k o = op_remove SD ds k o /\ sh_append D h ds k v d = op_append SD ds k v d.
  Proof.
    intros ds k v o d (e & He). unfold sh_get, sh_set, sh_remove, sh_append, op_get, op_set, op_remove, op_append. cbn [d_process shard_dbm]. unfold sh_process. rewrite He.
    split; [destruct (d_process D e k pr_get false _) as [[c e'] [i x]]; reflexivity|]. split; [destruct (d_process D e k (pr_set v true) true _) as [[c e'] [i x]]; reflexivity|].
    split; [destruct (d_process D e k (pr_set v false) true _) as [[c e'] [i x]]; reflexivity|]. split; [destruct (d_process D e k pr_remove true _) as [[c e'] [i x]]; reflexivity|].
    destruct (d_process D e k (pr_append v d) true tt) as [[c e'] []]; reflexivity.
  Qed.
  (** The same calls on the shards and on any other database with the same records: the processors see the same, and the records end the same. *)
  Theorem C35_same_results : forall (E : dbm) S (cs : list (rcall S)) ds e s cds ds' s1 ces e' s2, sh_ok D h n ds -> d_ok E e -> same_map (sh_view D h ds) (d_view E e) ->
    play SD cs ds s = (cds, ds', s1) -> play E cs e s = (ces, e', s2) -> Forall (eq SUCCESS) cds -> Forall (eq SUCCESS) ces ->
    sh_ok D h n ds' /\ s1 = s2 /\ same_map (sh_view D h ds') (d_view E e').
  Proof. intros E S cs ds e s cds ds' s1 ces e' s2. exact (play_same SD E S cs ds e s cds ds' s1 ces e' s2). Qed.
  (** CompareExchangeMulti over several shards: SUCCESS means that all the conditions held and all the updates were made. *)
  Theorem C35_compare_exchange_multi : forall ds exp des ds', sh_ok D h n ds -> sh_cas_multi D h ds exp des = (SUCCESS, ds') ->
    sh_ok D h n ds' /\ Forall (fun ke => expected_holds (sh_view D h ds) (fst ke) (snd ke)) exp /\ same_map (sh_view D h ds') (spec_updates (sh_view D h ds) des).
  Proof. intros. eapply sh_cas_success; eauto. Qed.
  (** If no call on a shard fails, it is all or nothing. *)
  Theorem C35_compare_exchange_multi_total : forall ds exp des, multi_succeeds D -> sh_ok D h n ds -> exists c ds', sh_cas_multi D h ds exp des = (c, ds') /\ sh_ok D h n ds' /\
    ((Forall (fun ke => expected_holds (sh_view D h ds) (fst ke) (snd ke)) exp /\ c = SUCCESS /\ same_map (sh_view D h ds') (spec_updates (sh_view D h ds) des)) \/
     (~ Forall (fun ke => expected_holds (sh_view D h ds) (fst ke) (snd ke)) exp /\ c = INFEASIBLE_ERROR /\ same_map (sh_view D h ds') (sh_view D h ds))).
  Proof.
    intros ds exp des MS O. destruct (sh_cas_total D h n n_pos h_lt ds exp des MS O) as (c & ds' & E & Q). exists c, ds'. split; [exact E|]. destruct Q as [->|(-> & H1 & H2 & H3)]; [|auto].
    destruct (sh_cas_success D h n n_pos h_lt ds exp des ds' O E) as (H1 & H2 & H3). auto.
  Qed.
  (** Count is the number of records of the shards together. *)
  Theorem C35_count : forall count ds m, sh_ok D h n ds -> (forall d c, d_ok D d -> count d = (SUCCESS, c) -> acount (d_view D d) c) ->
    sh_count D count ds 0 = (SUCCESS, m) -> acount (sh_view D h ds) m.
  Proof.
    intros count ds m O C W. destruct (count_sum D n n_pos count ds 0 m W) as (cs & F & ->). cbn. apply (union_count D h n n_pos h_lt); [intros i d Hi; apply (proj2 O _ _ Hi)|apply O|].
    assert (A : forall i d, nth_error ds i = Some d -> d_ok D d) by (intros i d Hi; apply (proj2 O _ _ Hi)). clear - F C A. induction F as [|d c ds cs H F IH]; constructor; [apply C; auto; apply (A 0); reflexivity|]. apply IH. intros i e Hi. apply (A (S i)). exact Hi.
  Qed.
End Records.

(** * The iterator *)
Section Iterators.
  Variable cmp : bytes -> bytes -> comparison.
  Hypothesis cmp_opp : forall a b, cmp b a = CompOpp (cmp a b).
  Hypothesis cmp_le_trans : forall a b c, cmp a b <> Gt -> cmp b c <> Gt -> cmp a c <> Gt.
  Hypothesis cmp_eq : forall a b, cmp a b = Eq -> a = b.
  Variable h : bytes -> nat.
  (** The shards have their records in order, each only keys of its own. *)
  Notation good := (good cmp h).
  (** All the records in one ordered list: there is one, and only one. *)
  Lemma key_once Ls : good Ls -> forall r r', In r (concat Ls) -> In r' (concat Ls) -> fst r = fst r' -> r = r'.
  Proof.
    intros Gd [k v] [k' v'] H H' E. cbn in E. subst k'. apply in_concat in H, H'. destruct H as (L & H1 & H2), H' as (L' & H3 & H4). apply In_nth_error in H1, H3. destruct H1 as [j H1], H3 as [j' H3].
    destruct (Gd _ _ H1) as [A1 K1]. destruct (Gd _ _ H3) as [A2 K2]. pose proof (K1 _ H2) as E1. pose proof (K2 _ H4) as E2. cbn in E1, E2. assert (L = L') by congruence. subst L'.
    pose proof (in_find cmp cmp_opp _ _ _ A1 H2). pose proof (in_find cmp cmp_opp _ _ _ A1 H4). congruence.
  Qed.
  Theorem C35_one_list : forall Ls, good Ls -> exists G, merged cmp Ls G /\ (forall G', merged cmp Ls G' -> G' = G) /\ Permutation (concat Ls) G.
  Proof.
    intros Ls Gd. assert (Mk : forall l, (forall r r', In r l -> In r' l -> fst r = fst r' -> r = r') -> exists G, ascending cmp G /\ forall r, In r G <-> In r l).
    { induction l as [|[k v] l IH]; intros F; [exists []; split; [constructor|tauto]|]. destruct IH as (G & A & I0); [intros r r' H H'; apply F; now right|].
      exists (o_put cmp k v G). split; [now apply put_asc|]. intros r. rewrite in_put by eauto. rewrite I0. cbn. split; [intros [->|[H _]]; auto|]. intros [<-|H]; auto. destruct (beqb_spec (fst r) k) as [E|N]; [|auto].
      left. apply F; [now right|now left|exact E]. }
    assert (CN : forall r, In r (concat Ls) <-> exists j L, nth_error Ls j = Some L /\ In r L).
    { intros r. rewrite in_concat. split; [intros (L & H1 & H2); apply In_nth_error in H1; destruct H1; eauto|intros (j & L & H1 & H2); apply nth_error_In in H1; eauto]. }
    destruct (Mk (concat Ls) (key_once Ls Gd)) as (G & A & I0). exists G. split; [split; [exact A|intros r; rewrite I0; apply CN]|]. split.
    - intros G' [A' I1]. assert (I2 : forall r, In r G <-> In r G') by (intros r; rewrite I0, I1; apply CN). clear - cmp_opp A A' I2. revert G' A' I2. induction A as [|[k v] G A IH F]; intros [|[k' v'] G'] A' I2; auto.
      + destruct (proj2 (I2 _) (or_introl eq_refl)).
      + destruct (proj1 (I2 _) (or_introl eq_refl)).
      + inversion A' as [|? ? A1 F1]; subst. rewrite Forall_forall in F, F1. assert (Q : (k, v) = (k', v')).
        { destruct (proj1 (I2 (k, v)) (or_introl eq_refl)) as [E|E]; [auto|]. destruct (proj2 (I2 (k', v')) (or_introl eq_refl)) as [E'|E']; [auto|]. pose proof (F1 _ E) as X1. pose proof (F _ E') as X2. cbn in X1, X2. rewrite cmp_opp, X1 in X2. discriminate. }
        inversion Q; subst k' v'. f_equal. apply IH; auto. intros r. split; intros Hr.
        * destruct (proj1 (I2 r) (or_intror Hr)) as [E|E]; auto. subst r. pose proof (F _ Hr) as X. cbn in X. rewrite (cmp_same cmp cmp_opp) in X. discriminate.
        * destruct (proj2 (I2 r) (or_intror Hr)) as [E|E]; auto. subst r. pose proof (F1 _ Hr) as X. cbn in X. rewrite (cmp_same cmp cmp_opp) in X. discriminate.
    - assert (ND : forall L, ascending cmp L -> NoDup L). { intros L AL. induction AL as [|r L AL IH FL]; constructor; auto. intros Hr. rewrite Forall_forall in FL. specialize (FL _ Hr). rewrite (cmp_same cmp cmp_opp) in FL. discriminate. }
      apply NoDup_Permutation; [|now apply ND|intros r; symmetry; apply I0]. clear - cmp_opp Gd ND.
      assert (Q : forall Ls0 lo, (forall j L, nth_error Ls0 j = Some L -> ascending cmp L /\ forall r, In r L -> h (fst r) = lo + j) -> NoDup (concat Ls0)).
      { induction Ls0 as [|L Ls0 IH]; intros lo H; cbn; [constructor|]. assert (H' : forall j L0, nth_error Ls0 j = Some L0 -> ascending cmp L0 /\ forall r, In r L0 -> h (fst r) = S lo + j) by (intros j L0 Hj; destruct (H (S j) L0 Hj) as [X1 X2]; split; auto; intros r Hr; rewrite (X2 r Hr); lia).
        destruct (H 0 L eq_refl) as [X1 X2]. assert (AP : forall l1 l2 : omap, NoDup l1 -> NoDup l2 -> (forall r, In r l1 -> ~ In r l2) -> NoDup (l1 ++ l2)). { induction l1 as [|a l1 IH1]; intros l2 N1 N2 N3; cbn; auto. inversion N1; subst. constructor; [rewrite in_app_iff; intros [Y|Y]; [auto|apply (N3 a); [now left|exact Y]]|]. apply IH1; auto. intros r Hr. apply N3. now right. }
        apply AP; [now apply ND|now apply (IH (S lo))|]. intros r Hr Hc. apply in_concat in Hc. destruct Hc as (L0 & Y1 & Y2). apply In_nth_error in Y1. destruct Y1 as [j Y1]. destruct (H' _ _ Y1) as [_ Y3]. specialize (Y3 _ Y2). rewrite (X2 _ Hr) in Y3. lia. }
      apply (Q Ls 0). intros j L Hj. apply (Gd j L Hj).
  Qed.
  (** Any history of calls of the iterator goes through the one ordered list [G] of all the records, as given in ShardSpec.v: every move goes
      where it goes in that list and nothing is undefined, provided that records are removed only after moving upward (or at no record). *)
  Theorem C35_iterator : forall T (cs : list (scall T)) dbs G rs t', good (recs dbs) -> merged cmp (recs dbs) G -> allowed T false cs ->
    sit_runs cmp T cs (sit_new dbs) rs t' -> exists g', git_runs cmp T cs (mkG G None true) rs g' /\ good (recs (t_dbs t')) /\ merged cmp (recs (t_dbs t')) (g_recs g').
  Proof.
    intros T cs dbs G rs t' H1 H2 Al W. destruct (runs_ok cmp cmp_opp cmp_le_trans cmp_eq h T cs false _ _ _ _ (new_inv cmp h dbs G H1 H2 false) Al W) as (g' & up & R & V). exists g'. split; auto. destruct V as (V1 & V2 & _). auto.
  Qed.
  Lemma runs_app T : forall cs1 cs2 g rs g', git_runs cmp T (cs1 ++ cs2) g rs g' -> exists rs1 g1 rs2, git_runs cmp T cs1 g rs1 g1 /\ git_runs cmp T cs2 g1 rs2 g' /\ rs = rs1 ++ rs2.
  Proof.
    induction cs1 as [|c cs1 IH]; intros cs2 g rs g' W; cbn in W; [exists [], g, rs; split; [constructor|auto]|]. inversion W as [|c0 cs0 g0 r g1 rs0 g2 W1 W2]; subst. destruct (IH _ _ _ _ W2) as (rs1 & g3 & rs2 & X1 & X2 & ->).
    exists (r :: rs1), g3, rs2. split; [econstructor; eauto|auto].
  Qed.
  (** First and then Get and Next in turn give every record of every shard once, in the order of the keys; Last and Previous, in reverse. *)
  Definition scanning T (c : scall T) (n : nat) : list (scall T) := concat (repeat [SGet T; c] n).
  Definition answers T (l : omap) : list (sres T) := concat (map (fun r => [UGet T SUCCESS r; UCode T SUCCESS]) l).
  Lemma get_at T g k v v0 r g' : git_step cmp T (SGet T) g r g' -> g_cur g = Some k -> g_fresh g = true -> o_find cmp k (g_recs g) = Some (k, v0) -> v0 = v -> r = UGet T SUCCESS (k, v) /\ g' = g.
  Proof. intros W C F O <-. inversion W as [| | | | | | |g1 k1 v1 v2 X1 X2 X3| | | |g1 c1 X1 X2|g1 X1|]; subst; try congruence; try contradiction. assert (k1 = k) by congruence. subst k1. rewrite X2 in O. inversion O; subst. now rewrite (X3 F). Qed.
  Lemma up_run T : forall B A g rs g', ascending cmp (A ++ B) -> g_recs g = A ++ B -> g_cur g = key_of (hd_error B) -> g_fresh g = true ->
    git_runs cmp T (scanning T (SNext T) (length B) ++ [SGet T]) g rs g' -> rs = answers T B ++ [UGet T NOT_FOUND_ERROR ([], [])] /\ g_recs g' = A ++ B.
  Proof.
    induction B as [|[k v] B IH]; intros A g rs g' As E C F W.
    - cbn in W. inversion W as [|c0 cs0 g0 r g1 rs0 g2 W1 W2]; subst. inversion W2; subst. cbn in C. inversion W1 as [| | | | | | |g1 k1 v1 v2 X1 X2 X3| | | |g1 c1 X1 X2|g1 X1|]; subst; try congruence; try contradiction. auto.
    - change (scanning T (SNext T) (length ((k, v) :: B)) ++ [SGet T]) with (SGet T :: SNext T :: scanning T (SNext T) (length B) ++ [SGet T]) in W. inversion W as [|c0 cs0 g0 r g1 rs0 g2 W1 W2]; subst. inversion W2 as [|c1 cs1 g3 r1 g4 rs1 g5 W3 W4]; subst.
      cbn in C. pose proof (find_mid cmp cmp_opp A k v B As) as Fm. destruct (get_at T g k v v r g1 W1 C F ltac:(rewrite E; exact Fm) eq_refl) as [-> ->].
      inversion W3 as [| | | | |g6 k6 X1| | | | | |g6 c6 X1 X2| |]; subst; [|congruence]. assert (k6 = k) by congruence. subst k6. rewrite E in W4. rewrite (gt_mid cmp cmp_opp A k v B As) in W4.
      replace (A ++ (k, v) :: B) with ((A ++ [(k, v)]) ++ B) in * by now rewrite <- app_assoc. destruct (IH (A ++ [(k, v)]) (going g (key_of (hd_error B))) rs1 g' As E eq_refl eq_refl W4) as [-> R]. cbn [going g_recs]. split; [reflexivity|exact R].
  Qed.
  Lemma down_run T : forall A B g rs g', ascending cmp (rev A ++ B) -> g_recs g = rev A ++ B -> g_cur g = key_of (hd_error A) -> g_fresh g = true ->
    git_runs cmp T (scanning T (SPrev T) (length A) ++ [SGet T]) g rs g' -> rs = answers T A ++ [UGet T NOT_FOUND_ERROR ([], [])] /\ g_recs g' = rev A ++ B.
  Proof.
    induction A as [|[k v] A IH]; intros B g rs g' As E C F W.
    - cbn in W. inversion W as [|c0 cs0 g0 r g1 rs0 g2 W1 W2]; subst. inversion W2; subst. cbn in C. inversion W1 as [| | | | | | |g1 k1 v1 v2 X1 X2 X3| | | |g1 c1 X1 X2|g1 X1|]; subst; try congruence; try contradiction. auto.
    - change (scanning T (SPrev T) (length ((k, v) :: A)) ++ [SGet T]) with (SGet T :: SPrev T :: scanning T (SPrev T) (length A) ++ [SGet T]) in W. inversion W as [|c0 cs0 g0 r g1 rs0 g2 W1 W2]; subst. inversion W2 as [|c1 cs1 g3 r1 g4 rs1 g5 W3 W4]; subst.
      cbn [rev] in As, E |- *. rewrite <- app_assoc in As, E |- *. cbn [app] in As, E |- *. cbn in C. pose proof (find_mid cmp cmp_opp (rev A) k v B As) as Fm. destruct (get_at T g k v v r g1 W1 C F ltac:(rewrite E; exact Fm) eq_refl) as [-> ->].
      inversion W3 as [| | | | | |g6 k6 X1| | | | |g6 c6 X1 X2| |]; subst; [|congruence]. assert (k6 = k) by congruence. subst k6. rewrite E in W4. rewrite (lt_mid cmp cmp_opp (rev A) k v B As), rev_involutive in W4.
      destruct (IH ((k, v) :: B) (going g (key_of (hd_error A))) rs1 g' As E eq_refl eq_refl W4) as [-> R]. split; [reflexivity|exact R].
  Qed.
  Lemma scan_allowed T c : allowed1 T true c -> allowed1 T false c -> allowed T true [SGet T] -> forall n up, allowed T up (scanning T c n ++ [SGet T]).
  Proof. intros H1 H2 _. induction n as [|n IH]; intros up; cbn; [auto|]. split; [exact I|]. split; [destruct up; assumption|]. apply IH. Qed.
  Theorem C35_scan_up : forall T dbs G rs t', good (recs dbs) -> merged cmp (recs dbs) G ->
    sit_runs cmp T (SFirst T :: scanning T (SNext T) (length G) ++ [SGet T]) (sit_new dbs) rs t' -> rs = UCode T SUCCESS :: answers T G ++ [UGet T NOT_FOUND_ERROR ([], [])].
  Proof.
    intros T dbs G rs t' H1 H2 W. assert (Al : allowed T false (SFirst T :: scanning T (SNext T) (length G) ++ [SGet T])) by (cbn [allowed]; split; [exact I|apply scan_allowed; cbn; auto]). destruct (C35_iterator T _ dbs G rs t' H1 H2 Al W) as (g' & R & _).
    inversion R as [|c0 cs0 g0 r g1 rs0 g2 W1 W2]; subst. inversion W1; subst; try contradiction. f_equal. refine (proj1 (up_run T G [] _ _ g' _ _ _ _ W2)); auto. apply H2.
  Qed.
  Theorem C35_scan_down : forall T dbs G rs t', good (recs dbs) -> merged cmp (recs dbs) G ->
    sit_runs cmp T (SLast T :: scanning T (SPrev T) (length G) ++ [SGet T]) (sit_new dbs) rs t' -> rs = UCode T SUCCESS :: answers T (rev G) ++ [UGet T NOT_FOUND_ERROR ([], [])].
  Proof.
    intros T dbs G rs t' H1 H2 W. assert (Al : allowed T false (SLast T :: scanning T (SPrev T) (length G) ++ [SGet T])) by (cbn [allowed]; split; [exact I|apply scan_allowed; cbn; auto]). destruct (C35_iterator T _ dbs G rs t' H1 H2 Al W) as (g' & R & _).
    inversion R as [|c0 cs0 g0 r g1 rs0 g2 W1 W2]; subst. inversion W1; subst; try contradiction. f_equal. rewrite <- (rev_length G) in W2.
    refine (proj1 (down_run T (rev G) [] _ _ g' _ _ _ _ W2)); rewrite ?rev_involutive, ?app_nil_r; cbn; auto. apply H2.
  Qed.
  (** ProcessEach calls the processor for every record of every shard, between two calls for no record. *)
  Lemma each_app U : forall l1 l2 (p : proc U) w s, o_each (l1 ++ l2) p w s = (fst (o_each l1 p w s) ++ fst (o_each l2 p w (snd (o_each l1 p w s))), snd (o_each l2 p w (snd (o_each l1 p w s)))).
  Proof.
    induction l1 as [|[k v] l1 IH]; intros l2 p w s; cbn [app o_each fst snd]; [now destruct (o_each l2 p w s)|]. destruct (on_full p k v s) as [a s1]. rewrite IH. destruct (o_each l1 p w s1) as [r s2]. cbn [fst snd]. destruct (o_each l2 p w s2) as [r2 s3]. cbn [fst snd]. destruct w, a; reflexivity.
  Qed.
  Theorem C35_each : forall U Ls (p : proc U) w s, good Ls ->
    concat (fst (sh_each Ls p w s)) = fst (o_each (concat Ls) p w (snd (on_empty p [] s))) /\
    snd (sh_each Ls p w s) = snd (on_empty p [] (snd (o_each (concat Ls) p w (snd (on_empty p [] s))))) /\ good (fst (sh_each Ls p w s)).
  Proof.
    intros U Ls p w s Gd. unfold sh_each. set (s0 := snd (on_empty p [] s)).
    assert (Q : forall l1 s, concat (fst (each_all l1 p w s)) = fst (o_each (concat l1) p w s) /\ snd (each_all l1 p w s) = snd (o_each (concat l1) p w s)).
    { induction l1 as [|L Ls0 IH]; intros s1; cbn [each_all concat]; [auto|]. rewrite each_app. destruct (o_each L p w s1) as [l' s2]. cbn [fst snd]. destruct (IH s2) as [I1 I2]. destruct (each_all Ls0 p w s2) as [r' s3]. cbn [fst snd concat] in *. now rewrite I1, I2. }
    destruct (Q Ls s0) as [Q1 Q2]. destruct (each_all Ls p w s0) as [ls' s1] eqn:Ea. cbn [fst snd] in *. split; auto. split; [now rewrite Q2|].
    assert (KS : forall L s, forall r, In r (fst (o_each L p w s)) -> exists r0, In r0 L /\ fst r0 = fst r).
    { induction L as [|[k v] L IH]; intros s2 r; cbn [o_each]; [intros []|]. destruct (on_full p k v s2) as [a s3]. specialize (IH s3). destruct (o_each L p w s3) as [r' s4]. cbn [fst] in *. intros Hr.
      assert (X : fst r = k \/ In r r') by (destruct w, a; cbn in Hr; destruct Hr as [<-|Hr] || idtac; auto). destruct X as [X|X]; [exists (k, v); split; [now left|auto]|]. destruct (IH _ X) as (r0 & X1 & X2). exists r0. split; [now right|auto]. }
    assert (AS : forall L s, ascending cmp L -> ascending cmp (fst (o_each L p w s))).
    { induction L as [|[k v] L IH]; intros s2 A; cbn [o_each]; [exact A|]. inversion A as [|? ? A1 F1]; subst. destruct (on_full p k v s2) as [a s3]. specialize (IH s3 A1). pose proof (KS L s3) as K3. destruct (o_each L p w s3) as [r' s4]. cbn [fst] in *.
      assert (F2 : Forall (fun r => cmp k (fst r) = Lt) r'). { apply Forall_forall. intros r Hr. destruct (K3 _ Hr) as (r0 & X1 & X2). rewrite Forall_forall in F1. rewrite <- X2. apply (F1 _ X1). }
      destruct w, a; auto; constructor; auto. }
    clear - Ea Gd KS AS. assert (Z : forall Ls lo s ls' s1, each_all Ls p w s = (ls', s1) -> (forall j L, nth_error Ls j = Some L -> ascending cmp L /\ forall r, In r L -> h (fst r) = lo + j) -> forall j L, nth_error ls' j = Some L -> ascending cmp L /\ forall r, In r L -> h (fst r) = lo + j).
    { clear - KS AS. induction Ls as [|L Ls IH]; intros lo s ls' s1 E H j L0 Hj; cbn in E; [inversion E; subst; destruct j; discriminate|]. destruct (o_each L p w s) as [l' s2] eqn:E1. destruct (each_all Ls p w s2) as [r' s3] eqn:E2. inversion E; subst. destruct j as [|j]; cbn in Hj.
      - inversion Hj; subst L0. destruct (H 0 L eq_refl) as [X1 X2]. pose proof (AS L s X1) as Y1. pose proof (KS L s) as Y2. rewrite E1 in Y1, Y2. cbn in Y1, Y2. split; auto. intros r Hr. destruct (Y2 r Hr) as (r0 & Z1 & Z2). rewrite <- Z2. now apply X2.
      - replace (lo + S j) with (S lo + j) by lia. eapply (IH (S lo)); eauto. intros j0 L1 H1. destruct (H (S j0) L1 H1) as [X1 X2]. split; auto. intros r Hr. rewrite (X2 r Hr). lia. }
    intros j L Hj. apply (Z Ls 0 s0 ls' s1 Ea); auto.
  Qed.
End Iterators.

(** * A case: two shards of StdTreeDBM, by the parity of the first byte *)
Definition par (k : bytes) : nat := N.to_nat (hd 0%N k) mod 2.
Lemma par_lt k : par k < 2.
Proof. apply Nat.mod_upper_bound. discriminate. Qed.
Definition head_of (l : list (bytes * bytes)) : code * bytes * bytes := match l with [] => (NOT_FOUND_ERROR, [], []) | (k, v) :: _ => (SUCCESS, k, v) end.
Lemma head_good : peek_good std_tree head_of.
Proof.
  intros [|[k1 v1] l] c k v O W; cbn in W; inversion W; subst.
  - split; [discriminate|discriminate].
  - split; [intros _; cbn; now rewrite beqb_refl|]. intros Z. specialize (Z k). cbn in Z. rewrite beqb_refl in Z. discriminate.
Qed.
Definition two : dbm := shard_dbm std_tree par 2 ltac:(lia) par_lt head_of bcmp head_good.
Definition dbs0 : list (list (bytes * bytes)) := [[([2%N], [20%N])]; [([1%N], [10%N]); ([3%N], [30%N])]].
Example two_ok : sh_ok std_tree par 2 dbs0.
Proof.
  split; [reflexivity|]. intros [|[|i]] d H; cbn in H; [| |destruct i; discriminate]; inversion H; subst.
  - split; [repeat constructor|]. intros k. cbn [d_view std_tree l_get]. destruct (beqb_spec [2%N] k) as [<-|]; [reflexivity|congruence].
  - split; [repeat constructor|]. intros k. cbn [d_view std_tree l_get]. destruct (beqb_spec [1%N] k) as [<-|]; [reflexivity|]. destruct (beqb_spec [3%N] k) as [<-|]; [reflexivity|congruence].
Qed.
Example two_never_fails : multi_succeeds std_tree.
Proof. intros S d l w s O. pose proof (l_multi_spec S l w d s O) as P. cbn. destruct (l_multi d l w s) as [[c d'] s']. destruct P as [-> _]. eauto. Qed.
(** All the conditions hold, on both shards; then one does not. *)
Example two_exchange : sh_cas_multi std_tree par dbs0 [([1%N], VStr [10%N]); ([2%N], VAny); ([4%N], VNull)] [([2%N], VStr [99%N]); ([3%N], VNull)] = (SUCCESS, [[([2%N], [99%N])]; [([1%N], [10%N])]]).
Proof. reflexivity. Qed.
Example two_exchange_not : sh_cas_multi std_tree par dbs0 [([1%N], VStr [11%N]); ([2%N], VAny)] [([2%N], VStr [99%N]); ([3%N], VNull)] = (INFEASIBLE_ERROR, dbs0).
Proof. reflexivity. Qed.
Example two_count : sh_count std_tree (fun l => (SUCCESS, length l)) dbs0 0 = (SUCCESS, 3).
Proof. reflexivity. Qed.
Example two_first : op_pop two dbs0 [] [] = (SUCCESS, ([1%N], [10%N]), [[([2%N], [20%N])]; [([3%N], [30%N])]]).
Proof. reflexivity. Qed.
Example two_rekey : op_rekey two dbs0 [1%N] [8%N] false false [] = (SUCCESS, [10%N], [[([2%N], [20%N]); ([8%N], [10%N])]; [([3%N], [30%N])]]).
Proof. reflexivity. Qed.
(** The hash of the code: any number of shards. *)
Example hash_shards : forall n, (0 < n)%N -> forall k, N.to_nat (secondary_hash k n) < N.to_nat n.
Proof. intros n H k. unfold secondary_hash. assert (n <> 0%N) as N0 by (intros ->; discriminate). pose proof (N.mod_lt (fold_hash (hash_fnv k) n) n N0). lia. Qed.

(** The iterator of the two shards. *)
Definition at0 (o : ost) (r : option bytes) : ost := mkO (o_recs o) (fun i => if Nat.eqb i 0 then r else o_pos o i).
Definition sh0 : ost := mkO [([2%N], [20%N])] (fun _ => None).
Definition sh1 : ost := mkO [([1%N], [10%N]); ([3%N], [30%N])] (fun _ => None).
Definition all3 : omap := [([1%N], [10%N]); ([2%N], [20%N]); ([3%N], [30%N])].
Example two_good : good bcmp par (recs [sh0; sh1]).
Proof. intros [|[|i]] L H; cbn in H; [| |destruct i; discriminate]; inversion H; subst; (split; [repeat constructor|]); intros r Hr; cbn in Hr; intuition (subst; reflexivity). Qed.
Example two_merged : merged bcmp (recs [sh0; sh1]) all3.
Proof.
  split; [repeat constructor|]. intros r. cbn. split.
  - intros [<-|[<-|[<-|[]]]]; [exists 1|exists 0|exists 1]; eexists; (split; [reflexivity|]); cbn; auto.
  - intros ([|[|i]] & L & H & Hr); cbn in H; [| |destruct i; discriminate]; inversion H; subst; cbn in Hr; tauto.
Qed.
Ltac heap_tac := intros [|[|i]] x p Hi Hx Hp; [lia| |destruct i; discriminate]; cbn in Hx, Hp; inversion Hx; inversion Hp; subst; compute; discriminate.
Ltac heap_one := intros [|i] x p Hi Hx Hp; [lia|destruct i; discriminate].
Ltac heap_nil := intros [|i] x p Hi Hx Hp; discriminate.
(** First stands at record 1, of shard 1. *)
Definition up1 : sit := mkSit [at0 (at0 sh0 (Some [2%N])) (Some [2%N]); at0 (at0 sh1 (Some [1%N])) (Some [1%N])] [([2%N], [20%N]); ([1%N], [10%N])] [1; 0] true.
Lemma two_first_step T : sit_step bcmp T (SFirst T) (sit_new [sh0; sh1]) (UCode T SUCCESS) up1.
Proof.
  change (UCode T SUCCESS) with (res_of T (Some SUCCESS)). change up1 with (with_asc (mkSit (t_dbs up1) (t_slots up1) [1; 0] false) (Some SUCCESS) true). apply ss_first.
  eapply (fl_push bcmp MFirst true None 0 _ sh0 (at0 sh0 (Some [2%N])) ([], []) (at0 (at0 sh0 (Some [2%N])) (Some [2%N])) ([2%N], [20%N]) [0]); [reflexivity| | | | |].
  - cbn. repeat split.
  - cbn. repeat split.
  - intros [X _]. discriminate.
  - split; [heap_nil|]. split; [apply Permutation_refl|heap_one].
  - eapply (fl_push bcmp MFirst true None 1 _ sh1 (at0 sh1 (Some [1%N])) ([], []) (at0 (at0 sh1 (Some [1%N])) (Some [1%N])) ([1%N], [10%N]) [1; 0]); [reflexivity| | | | |].
    + cbn. repeat split.
    + cbn. repeat split.
    + intros [X _]. discriminate.
    + split; [heap_one|]. split; [apply Permutation_refl|heap_tac].
    + apply fl_end. reflexivity.
Qed.
Definition up2 : sit := mkSit [at0 (at0 sh0 (Some [2%N])) (Some [2%N]); at0 (at0 (at0 (at0 sh1 (Some [1%N])) (Some [1%N])) (Some [3%N])) (Some [3%N])] [([2%N], [20%N]); ([3%N], [30%N])] [0; 1] true.
Lemma two_next_step T : sit_step bcmp T (SNext T) up1 (UCode T SUCCESS) up2.
Proof.
  apply ss_next; [discriminate|reflexivity|]. change (UCode T SUCCESS) with (match Some SUCCESS with Some c => UCode T (at_end c) | None => UUndef T end).
  eapply (av_move bcmp T (KItNext 0) true up1 1 [0] (at0 (at0 sh1 (Some [1%N])) (Some [1%N])) (at0 (at0 (at0 sh1 (Some [1%N])) (Some [1%N])) (Some [3%N])) ([], []) (Some SUCCESS) up2); [|reflexivity| |].
  - split; [heap_tac|]. split; [reflexivity|]. split; [apply Permutation_refl|heap_one].
  - cbn. repeat split.
  - eapply (rf_push bcmp true (set_db up1 1 (at0 (at0 (at0 sh1 (Some [1%N])) (Some [1%N])) (Some [3%N]))) 1 [0] (at0 (at0 (at0 sh1 (Some [1%N])) (Some [1%N])) (Some [3%N])) (at0 (at0 (at0 (at0 sh1 (Some [1%N])) (Some [1%N])) (Some [3%N])) (Some [3%N])) ([3%N], [30%N]) [0; 1]); [reflexivity| |].
    + cbn. repeat split.
    + split; [heap_one|]. split; [apply perm_swap|heap_tac].
Qed.
Example two_run : exists t', sit_runs bcmp unit [SFirst unit; SGet unit; SNext unit; SGet unit] (sit_new [sh0; sh1])
  [UCode unit SUCCESS; UGet unit SUCCESS ([1%N], [10%N]); UCode unit SUCCESS; UGet unit SUCCESS ([2%N], [20%N])] t' /\ allowed unit false [SFirst unit; SGet unit; SNext unit; SGet unit].
Proof.
  exists up2. split; [|cbn; tauto]. eapply sr_cons; [apply two_first_step|]. eapply sr_cons; [apply (ss_get bcmp unit up1 1); reflexivity|]. eapply sr_cons; [apply two_next_step|]. eapply sr_cons; [apply (ss_get bcmp unit up2 0); reflexivity|]. constructor.
Qed.

(** Without the condition on removals the claim fails: Last and then Remove, with a record in two shards, calls pop_heap on a heap made with
    the other comparator, lines 856-857 and 901-902, which is undefined. *)
Definition down1 : sit := mkSit [at0 (at0 sh0 (Some [2%N])) (Some [2%N]); at0 (at0 sh1 (Some [3%N])) (Some [3%N])] [([2%N], [20%N]); ([3%N], [30%N])] [1; 0] false.
Lemma two_last_step T : sit_step bcmp T (SLast T) (sit_new [sh0; sh1]) (UCode T SUCCESS) down1.
Proof.
  change (UCode T SUCCESS) with (res_of T (Some SUCCESS)). change down1 with (with_asc (mkSit (t_dbs down1) (t_slots down1) [1; 0] false) (Some SUCCESS) false). apply ss_last.
  eapply (fl_push bcmp MLast false None 0 _ sh0 (at0 sh0 (Some [2%N])) ([], []) (at0 (at0 sh0 (Some [2%N])) (Some [2%N])) ([2%N], [20%N]) [0]); [reflexivity| | | | |].
  - cbn. repeat split.
  - cbn. repeat split.
  - intros [X _]. discriminate.
  - split; [heap_nil|]. split; [apply Permutation_refl|heap_one].
  - eapply (fl_push bcmp MLast false None 1 _ sh1 (at0 sh1 (Some [3%N])) ([], []) (at0 (at0 sh1 (Some [3%N])) (Some [3%N])) ([3%N], [30%N]) [1; 0]); [reflexivity| | | | |].
    + cbn. repeat split.
    + cbn. repeat split.
    + intros [X _]. discriminate.
    + split; [heap_one|]. split; [apply Permutation_refl|heap_tac].
    + apply fl_end. reflexivity.
Qed.
Theorem C35_remove_down_refuted : ~ (forall T (cs : list (scall T)) dbs rs t', good bcmp par (recs dbs) -> sit_runs bcmp T cs (sit_new dbs) rs t' -> ~ In (UUndef T) rs).
Proof.
  intros H. set (o1 := at0 (at0 sh1 (Some [3%N])) (Some [3%N])). set (o2 := mkO [([1%N], [10%N])] (fun i => if Nat.eqb i 0 then Some [3%N] else o_pos o1 i)).
  apply (H unit [SLast unit; SRemove unit] [sh0; sh1] [UCode unit SUCCESS; UUndef unit] (set_db down1 1 o2) two_good); [|now right; left]. eapply sr_cons; [apply two_last_step|]. eapply sr_cons; [|constructor].
  change (UUndef unit) with (match @None unit with Some _ => UCode unit SUCCESS | None => UUndef unit end). eapply (ss_remove bcmp unit down1 1 o1 SUCCESS o2 (SUCCESS, [30%N])); [reflexivity|reflexivity| |reflexivity|].
  - cbn. repeat split.
  - apply ar_undef. intros X. apply (X 1 0 1); [lia|reflexivity|reflexivity|]. reflexivity.
Qed.
(** Process of the iterator does not keep the value it has just set: Get gives the old one, line 848. *)
Theorem C35_process_stale_refuted : ~ (forall T (cs : list (scall T)) dbs rs t' k v, good bcmp par (recs dbs) -> allowed T false cs ->
  sit_runs bcmp T (cs ++ [SGet T]) (sit_new dbs) (rs ++ [UGet T SUCCESS (k, v)]) t' -> exists j L, nth_error (recs (t_dbs t')) j = Some L /\ In (k, v) L).
Proof.
  intros H. set (p := @mkProc unit (fun _ _ s => (ASet [99%N], s)) (fun _ s => (ANoop, s))). set (o1 := at0 (at0 sh1 (Some [1%N])) (Some [1%N])).
  set (o2 := mkO [([1%N], [99%N]); ([3%N], [30%N])] (fun i => if Nat.eqb i 0 then Some [1%N] else o_pos o1 i)).
  destruct (H unit [SFirst unit; SProcess unit p true tt] [sh0; sh1] [UCode unit SUCCESS; UProc unit SUCCESS tt] (set_db up1 1 o2) [1%N] [10%N] two_good) as ([|[|j]] & L & H1 & H2).
  - cbn. split; [exact I|]. split; [now left|exact I].
  - cbn [app]. eapply sr_cons; [apply two_first_step|]. eapply sr_cons; [|eapply sr_cons; [apply (ss_get bcmp unit (set_db up1 1 o2) 1); reflexivity|constructor]].
    eapply (ss_proc bcmp unit p true tt up1 1 o1 SUCCESS o2 tt false); [reflexivity|reflexivity| |reflexivity]. cbn. repeat split.
  - cbn in H1. inversion H1; subst. cbn in H2. intuition congruence.
  - cbn in H1. inversion H1; subst. cbn in H2. intuition congruence.
  - destruct j; discriminate.
Qed.

Print Assumptions C35_process. Print Assumptions C35_process_multi. Print Assumptions C35_process_first. Print Assumptions C35_forwarded. Print Assumptions C35_same_results.
Print Assumptions C35_compare_exchange_multi. Print Assumptions C35_compare_exchange_multi_total. Print Assumptions C35_count. Print Assumptions C35_one_list. Print Assumptions C35_iterator.
Print Assumptions C35_scan_up. Print Assumptions C35_scan_down. Print Assumptions C35_each. Print Assumptions C35_remove_down_refuted. Print Assumptions C35_process_stale_refuted.
