(** C37: an index holds exactly the pairs last added and lists the values of a key in order. *)
From Coq Require Import List NArith ZArith Bool Arith Lia Sorting.Sorted.
Import ListNotations.
From Verif Require Import Bytes BytesOrder DbmModel StatusModel OmapSpec OmapHist StrSerialModel StrSerialProofs ComparatorModel SearchModel IndexModel IndexSpec IndexProofs.
Local Open Scope nat_scope.

(** A database of serialized pairs orders its keys by [cmp], which is what the pair comparator over [kc] says of pairs. *)
Definition pair_order (cmp kc : bytes -> bytes -> comparison) : Prop :=
  (forall a b, cmp b a = CompOpp (cmp a b)) /\ (forall a b c, cmp a b <> Gt -> cmp b c <> Gt -> cmp a c <> Gt) /\
  forall x y r, cmp_pair (fun a b => Some (kc a b)) x y = Some r -> cmp x y = r.
(** The comparator of keys is a total order telling all the keys apart. *)
Definition linear (kc : bytes -> bytes -> comparison) : Prop :=
  (forall a b, kc a b = Eq <-> a = b) /\ (forall a b, kc b a = CompOpp (kc a b)) /\ forall a b c, kc a b = Lt -> kc b c = Lt -> kc a c = Lt.
(** Pairs by key, then by value. *)
Definition by_key_value (kc : bytes -> bytes -> comparison) (p q : bytes * bytes) : Prop :=
  kc (fst p) (fst q) = Lt \/ fst p = fst q /\ blt (snd p) (snd q).
(** The strings passed are shorter than 2^64 bytes. *)
Definition fits (c : icall bytes bytes) : Prop :=
  match c with
  | IAdd k v | IRemove k v | ICheck k v | IJump _ k v => (blen k < two64 /\ blen v < two64)%N
  | IValues k _ => (blen k < two64)%N
  | _ => True
  end.

Lemma pltc_by kc : linear kc -> forall p q, pltc kc p q <-> by_key_value kc p q.
Proof.
  intros (L1 & L2 & L3) p q. unfold pltc, pcmp, by_key_value, blt. destruct (kc (fst p) (fst q)) eqn:E.
  - apply L1 in E. split; intros H; [now right|]. destruct H as [H|[_ H]]; [discriminate|exact H].
  - split; auto.
  - split; [discriminate|]. intros [H|[H _]]; [discriminate|]. apply L1 in H. congruence.
Qed.
Lemma least_ext K V (R R' : K * V -> K * V -> Prop) (P P' : K * V -> Prop) M r : (forall p q, R p q <-> R' p q) -> (forall p, P p <-> P' p) -> least R P M r -> least R' P' M r.
Proof.
  intros HR HP H. destruct r as [p|]; cbn in *; [|intros q Hq; rewrite <- HP; auto]. destruct H as (H1 & H2 & H3). split; auto. split; [now apply HP|].
  intros q Hq Pq. apply HP in Pq. destruct (H3 q Hq Pq); auto. right. now apply HR.
Qed.
Lemma greatest_ext K V (R R' : K * V -> K * V -> Prop) (P P' : K * V -> Prop) M r : (forall p q, R p q <-> R' p q) -> (forall p, P p <-> P' p) -> greatest R P M r -> greatest R' P' M r.
Proof.
  intros HR HP H. destruct r as [p|]; cbn in *; [|intros q Hq; rewrite <- HP; auto]. destruct H as (H1 & H2 & H3). split; auto. split; [now apply HP|].
  intros q Hq Pq. apply HP in Pq. destruct (H3 q Hq Pq); auto. right. now apply HR.
Qed.
Lemma SS_ext T (R R' : T -> T -> Prop) l : (forall p q, R p q -> R' p q) -> StronglySorted R l -> StronglySorted R' l.
Proof. intros H. induction 1 as [|x l S IH F]; constructor; auto. eapply Forall_impl; [|exact F]. auto. Qed.
Lemma goes_ext K V (s s' : ist K V) j (P P' : option (K * V) -> Prop) : (forall r, P r -> P' r) -> goes s s' j P -> goes s s' j P'.
Proof. intros H (H1 & H2 & H3). split; auto. Qed.
Lemma db_spec_ext K V (R R' : K * V -> K * V -> Prop) c s r s' : (forall p q, R p q <-> R' p q) -> db_spec R c s r s' -> db_spec R' c s r s'.
Proof.
  intros H (S & W). split; [eapply SS_ext; [|exact S]; intros; now apply H|]. destruct c; auto.
  - destruct W as [(l & -> & full & F1 & F2 & F3) W]. split; auto. exists l. split; auto. exists full. split; auto. eapply SS_ext; [|exact F1]. cbn. intros; now apply H.
  - destruct W as [-> W]. split; auto. eapply goes_ext; [|exact W]. intros q. apply least_ext; auto. tauto.
  - destruct W as [-> W]. split; auto. eapply goes_ext; [|exact W]. intros q. apply greatest_ext; auto. tauto.
  - destruct W as [-> W]. split; auto. destruct (i_pos s j); auto. eapply goes_ext; [|exact W]. intros q. apply least_ext; auto.
  - destruct W as [-> W]. split; auto. destruct (i_pos s j); auto. eapply goes_ext; [|exact W]. intros q [H1 H2]. split.
    + intros Hi. eapply greatest_ext; [exact H| |apply H1, Hi]. intros x. apply H.
    + intros x Hx. destruct (H2 x Hx). split; auto. now apply H.
  - destruct (i_pos s j); auto. destruct W as (q & -> & L & G). exists q. split; auto. split; auto. eapply least_ext; [exact H| |exact L]. intros x. cbn. rewrite (H x p). tauto.
Qed.
Lemma runs_ext K V (f g : icall K V -> ist K V -> ires K V -> ist K V -> Prop) cs s rs s' :
  (forall c s r s', f c s r s' -> g c s r s') -> spec_runs f cs s rs s' -> spec_runs g cs s rs s'.
Proof. intros H. induction 1; econstructor; eauto. Qed.
Lemma fits_small cs : Forall fits cs -> Forall call_small cs.
Proof. apply Forall_impl. intros c. destruct c; auto. Qed.
Lemma agree_of cmp kc : pair_order cmp kc -> forall p q, small p -> small q -> cmp (ser p) (ser q) = pcmp kc p q.
Proof.
  intros (_ & _ & H) p q [P1 P2] [Q1 Q2]. apply H. unfold cmp_pair, ser. rewrite !pair_round by auto. unfold pcmp. destruct (kc (fst p) (fst q)); reflexivity.
Qed.

(** FileIndex, MemIndex and PolyIndex, over any history of calls on the index and on any number of iterators: every call returns what the
    specification of indices says; and the calls can always run. *)
Theorem C37_database : forall cmp kc, pair_order cmp kc -> linear kc -> forall h, Forall fits h ->
  (forall rs o, ix_runs cmp h o_empty rs o -> exists s, spec_runs (db_spec (by_key_value kc)) h i_new rs s) /\
  exists rs o, ix_runs cmp h o_empty rs o.
Proof.
  intros cmp kc PO L h F. pose proof L as (L1 & L2 & L3). pose proof PO as (P1 & P2 & P3). pose proof (agree_of _ _ PO) as A. apply fits_small in F. split.
  - intros rs o H. destruct (db_runs_sound cmp kc P1 P2 L1 L2 L3 A _ _ _ _ _ (drel_new kc) F H) as (s & S & _). exists s.
    eapply runs_ext; [|exact S]. intros. eapply db_spec_ext; [|eassumption]. now apply pltc_by.
  - eapply db_runs_ex; eauto using drel_new.
Qed.

(** The pairs held are those whose last Add is after their last Remove and the last Clear. *)
Lemma present_nil K V (p : K * V) : ~ present [] p.
Proof. intros (a & b & H & _). destruct a; discriminate. Qed.
Lemma present_snoc K V (h : list (icall K V)) c p : present (h ++ [c]) p <->
  c = IAdd (fst p) (snd p) \/ present h p /\ c <> IRemove (fst p) (snd p) /\ c <> IClear.
Proof.
  split.
  - intros (a & b & E & N1 & N2). destruct b as [|x b] using rev_ind.
    + apply app_inj_tail in E. left. tauto.
    + change (a ++ IAdd (fst p) (snd p) :: b ++ [x]) with (a ++ (IAdd (fst p) (snd p) :: b) ++ [x]) in E. rewrite app_assoc in E.
      apply app_inj_tail in E. destruct E as [-> ->]. right. rewrite in_app_iff in *. cbn in *. split; [|split; intros ->; tauto].
      exists a, b. tauto.
  - intros [->|((a & b & -> & N1 & N2) & M1 & M2)].
    + exists h, []. auto.
    + exists a, (b ++ [c]). rewrite <- app_assoc. split; auto. rewrite !in_app_iff. cbn. split; intros [?|[?|[]]]; auto; congruence.
Qed.
Section Present.
  Variables (K V : Type) (step : icall K V -> ist K V -> ires K V -> ist K V -> Prop).
  Hypothesis eqd : forall p q : K * V, p = q \/ p <> q.
  (** What a call does to the set of the pairs. *)
  Hypothesis step_mem : forall c s r s', step c s r s' -> forall p, In p (i_pairs s') <->
    c = IAdd (fst p) (snd p) \/ In p (i_pairs s) /\ c <> IRemove (fst p) (snd p) /\ c <> IClear.
  Lemma runs_present : forall h s0 rs s, spec_runs step h s0 rs s -> forall h0, (forall p, In p (i_pairs s0) <-> present h0 p) ->
    forall p, In p (i_pairs s) <-> present (h0 ++ h) p.
  Proof.
    induction 1 as [s|c cs s r s1 rs s2 H1 H2 IH]; intros h0 H0 p; [now rewrite app_nil_r|].
    replace (h0 ++ c :: cs) with ((h0 ++ [c]) ++ cs) by now rewrite <- app_assoc. apply IH. intros q. rewrite (step_mem _ _ _ _ H1), present_snoc, H0. tauto.
  Qed.
End Present.
Lemma db_mem K V (R : K * V -> K * V -> Prop) : (forall p q : K * V, p = q \/ p <> q) -> forall c s r s', db_spec R c s r s' -> forall p, In p (i_pairs s') <->
    c = IAdd (fst p) (snd p) \/ In p (i_pairs s) /\ c <> IRemove (fst p) (snd p) /\ c <> IClear.
Proof.
  intros eqd c s r s' (_ & W) p.
  assert (U : i_pairs s' = i_pairs s -> (forall k v, c <> IAdd k v) -> (forall k v, c <> IRemove k v) -> c <> IClear -> In p (i_pairs s') <->
    c = IAdd (fst p) (snd p) \/ In p (i_pairs s) /\ c <> IRemove (fst p) (snd p) /\ c <> IClear).
  { intros -> N1 N2 N3. split; [auto|]. intros [E|[E _]]; auto. exfalso. eapply N1, E. }
  destruct c.
  3-5,7-12: (apply U; try discriminate).
  - destruct W as (_ & M & _). rewrite (M p). destruct p as [k1 v1]. cbn. split.
    + intros [H|H]; [left; congruence|]. right. split; [exact H|]. split; discriminate.
    + intros [H|[H _]]; [left; congruence|now right].
  - destruct W as (_ & M & _). rewrite (M p). destruct p as [k1 v1]. cbn. split; [intros [H N]; right; split; auto; split; congruence|].
    intros [H|(H & N & _)]; [discriminate|]. split; auto. congruence.
  - apply W. - apply W. - apply W.
  - apply W. - apply W. - apply W.
  - destruct W as [_ W]. destruct (i_pos s j); apply W.
  - destruct W as [_ W]. destruct (i_pos s j); apply W.
  - destruct (i_pos s j); [|apply W]. destruct W as (q & _ & _ & W). apply W.
  - destruct W as (_ & -> & _). cbn. split; [intros []|]. intros [H|(_ & _ & H)]; [discriminate|congruence].
Qed.
Lemma std_mem K V (R : K * V -> K * V -> Prop) d : (forall p q : K * V, p = q \/ p <> q) -> forall c s r s', std_spec R d c s r s' -> forall p, In p (i_pairs s') <->
    c = IAdd (fst p) (snd p) \/ In p (i_pairs s) /\ c <> IRemove (fst p) (snd p) /\ c <> IClear.
Proof.
  intros eqd c s r s' (_ & _ & W) p.
  assert (U : i_pairs s' = i_pairs s -> (forall k v, c <> IAdd k v) -> (forall k v, c <> IRemove k v) -> c <> IClear -> In p (i_pairs s') <->
    c = IAdd (fst p) (snd p) \/ In p (i_pairs s) /\ c <> IRemove (fst p) (snd p) /\ c <> IClear).
  { intros -> N1 N2 N3. split; [auto|]. intros [E|[E _]]; auto. exfalso. eapply N1, E. }
  destruct c.
  3-5,7-12: (apply U; try discriminate).
  - destruct W as (_ & M & _). rewrite (M p). destruct p as [k1 v1]. cbn. split.
    + intros [H|H]; [left; congruence|]. right. split; [exact H|]. split; discriminate.
    + intros [H|[H _]]; [left; congruence|now right].
  - destruct W as (_ & M & _). rewrite (M p). destruct p as [k1 v1]. cbn. split; [intros [H N]; right; split; auto; split; congruence|].
    intros [H|(H & N & _)]; [discriminate|]. split; auto. congruence.
  - apply W. - apply W. - apply W.
  - apply W. - apply W. - apply W.
  - destruct W as [_ W]. destruct (i_pos s j); apply W.
  - destruct W as [_ W]. destruct (i_pos s j); apply W.
  - apply W.
  - destruct W as (_ & -> & _). cbn. split; [intros []|]. intros [H|(_ & _ & H)]; [discriminate|congruence].
Qed.
Lemma runs_snoc K V (f : icall K V -> ist K V -> ires K V -> ist K V -> Prop) h c s rs s' : spec_runs f (h ++ [c]) s rs s' ->
  exists rs1 r s1, rs = rs1 ++ [r] /\ spec_runs f h s rs1 s1 /\ f c s1 r s'.
Proof.
  revert s rs. induction h as [|x h IH]; cbn; intros s rs H; inversion H; subst.
  - inversion H6; subst. exists [], r, s. repeat split; auto. constructor.
  - destruct (IH _ _ H6) as (rs1 & r1 & sx & -> & W1 & W2). exists (r :: rs1), r1, sx. repeat split; auto. econstructor; eauto.
Qed.
Definition pair_dec (p q : bytes * bytes) : p = q \/ p <> q.
Proof. destruct (pcmp bcmp p q) eqn:E; [left; apply (pcmp_eq bcmp bcmp_eq); exact E| |]; right; intros ->; rewrite (proj2 (pcmp_eq bcmp bcmp_eq q q) eq_refl) in E; discriminate. Qed.

(** GetValues after any history: exactly the values present for the key, ascending, each once; the first [max] of them if [max] is not 0.
    Check says whether the pair is present, and Count is the number of the pairs. *)
Theorem C37_get_values : forall cmp kc, pair_order cmp kc -> linear kc -> forall h k max rs o, Forall fits h -> (blen k < two64)%N ->
  ix_runs cmp (h ++ [IValues k max]) o_empty rs o ->
  exists rs1 full, rs = rs1 ++ [RVals (match max with 0 => full | _ => firstn max full end)] /\
    StronglySorted blt full /\ forall v, In v full <-> present h (k, v).
Proof.
  intros cmp kc PO L h k max rs o F Hk H. destruct (proj1 (C37_database cmp kc PO L (h ++ [IValues k max]) ltac:(apply Forall_app; auto)) _ _ H) as (s & S).
  apply runs_snoc in S. destruct S as (rs1 & r & s1 & -> & S1 & _ & (l & -> & full & F1 & F2 & ->) & _). exists rs1, full. split; auto. split.
  - eapply SS_ext; [|exact F1]. unfold by_key_value. cbn. intros a b [H1|[_ H1]]; auto. destruct L as (L1 & _). rewrite (proj2 (L1 k k) eq_refl) in H1. discriminate.
  - intros v. rewrite F2. pose proof (runs_present _ _ _ (db_mem _ _ _ pair_dec) _ _ _ _ S1 [] (fun p => conj (fun f : In p [] => match f with end) (fun f => match present_nil _ _ _ f with end)) (k, v)) as W.
    cbn [app] in W. rewrite W. tauto.
Qed.
Theorem C37_check_count : forall cmp kc, pair_order cmp kc -> linear kc -> forall h k v rs o, Forall fits h -> (blen k < two64 /\ blen v < two64)%N ->
  ix_runs cmp (h ++ [ICheck k v; ICount]) o_empty rs o ->
  exists rs1 b n, rs = rs1 ++ [RBool b; RNum n] /\ (b = true <-> present h (k, v)) /\
    exists l, NoDup l /\ length l = n /\ forall p, In p l <-> present h p.
Proof.
  intros cmp kc PO L h k v rs o F Hk H.
  assert (F' : Forall fits (h ++ [ICheck k v; ICount])) by (apply Forall_app; split; auto; constructor; [exact Hk|constructor; [exact I|constructor]]).
  destruct (proj1 (C37_database cmp kc PO L _ F') _ _ H) as (s & S). change (h ++ [ICheck k v; ICount]) with (h ++ [ICheck k v] ++ [ICount]) in S. rewrite app_assoc in S.
  apply runs_snoc in S. destruct S as (rs1 & r & s1 & -> & S & _ & -> & _). apply runs_snoc in S. destruct S as (rs2 & r & s2 & -> & S & SS & (b & -> & B) & U & _).
  exists rs2, b, (length (i_pairs s1)). rewrite <- app_assoc. split; [reflexivity|].
  assert (W : forall p, In p (i_pairs s2) <-> present h p).
  { intros p. apply (runs_present _ _ _ (db_mem _ _ _ pair_dec) _ _ _ _ S []). intros q. split; [intros []|]. intros N. now apply present_nil in N. }
  rewrite U in *. split; [rewrite B; apply W|]. exists (i_pairs s1). split; [|split; [congruence|]].
  - apply (SS_NoDup _ _ (by_key_value kc)); [|exact SS]. intros p [N|[_ N]]; [|now apply blt_irrefl in N]. destruct L as (L1 & _). rewrite (proj2 (L1 _ _) eq_refl) in N. discriminate.
  - intros p. rewrite U. apply W.
Qed.

(** The orders exist: any order of keys extends to the database. *)
Definition dec (x : bytes) : bytes * bytes := match deserialize_pair x with Some p => p | None => ([], []) end.
Definition db_order (kc : bytes -> bytes -> comparison) (x y : bytes) : comparison := pcmp kc (dec x) (dec y).
Lemma C37_order_exists : forall kc, linear kc -> pair_order (db_order kc) kc.
Proof.
  intros kc (L1 & L2 & L3). split; [intros a b; apply (pcmp_opp kc L2)|]. split.
  - intros a b c H1 H2. unfold db_order in *. destruct (pcmp kc (dec a) (dec b)) eqn:E1; [|destruct (pcmp kc (dec b) (dec c)) eqn:E2|]; try congruence.
    + apply (pcmp_eq kc L1) in E1. now rewrite E1.
    + apply (pcmp_eq kc L1) in E2. now rewrite <- E2, E1.
    + rewrite (ptrans kc L1 L3 _ _ _ E1 E2). discriminate.
  - intros x y r H. unfold cmp_pair in H. unfold db_order, dec. destruct (deserialize_pair x) as [[a b]|]; [|discriminate]. destruct (deserialize_pair y) as [[c d]|]; [|discriminate].
    unfold pcmp. cbn. destruct (kc a c); congruence.
Qed.
Lemma C37_lexical_linear : linear bcmp.
Proof. split; [exact bcmp_eq|]. split; [intros a b; apply bcmp_opp|exact blt_trans]. Qed.

(** StdIndex over any types and any strict total order in which the pairs of a key are next to one another, as they are in std::less and
    std::greater of pairs: every call of any history returns what the specification says. *)
Definition strict_order {T} (R : T -> T -> Prop) : Prop := (forall a, ~ R a a) /\ (forall a b c, R a b -> R b c -> R a c) /\ forall a b, a = b \/ R a b \/ R b a.
Definition keys_together {K V} (R : K * V -> K * V -> Prop) : Prop := forall k v v' q, R (k, v) q -> R q (k, v') -> fst q = k.
Definition std_index {K V} (lt : K * V -> K * V -> bool) (d : V) (keq : K -> K -> bool) := si_runs K V (K * V) lt pair Some d keq.
Theorem C37_std : forall (K V : Type) (lt : K * V -> K * V -> bool) (R : K * V -> K * V -> Prop) (d : V) (keq : K -> K -> bool),
  (forall p q, lt p q = true <-> R p q) -> (forall a b, keq a b = true <-> a = b) -> strict_order R -> keys_together R ->
  forall h, exists s, spec_runs (std_spec R d) h i_new (fst (std_index lt d keq h (si_new (K * V)))) s.
Proof.
  intros K V lt R d keq HL HK (O1 & O2 & O3) KT h. unfold std_index.
  destruct (std_runs K V (K * V) lt pair Some d keq R (fun _ => True) O1 O2 O3 HK KT (fun a b c e _ _ => HL (a, b) (c, e)) (fun a b _ => eq_refl) h (si_new (K * V)) i_new) as (s & S & _).
  - split; auto. cbn. split; auto. split; [constructor|]. split; auto. discriminate.
  - apply Forall_forall. intros c _. destruct c; exact I.
  - eauto.
Qed.
(** GetValues of StdIndex: the values present for the key and not before VALUETYPE(). *)
Theorem C37_std_get_values : forall (K V : Type) (lt : K * V -> K * V -> bool) (R : K * V -> K * V -> Prop) (d : V) (keq : K -> K -> bool),
  (forall p q, lt p q = true <-> R p q) -> (forall a b, keq a b = true <-> a = b) -> strict_order R -> keys_together R ->
  forall h k max, exists rs1 full,
    fst (std_index lt d keq (h ++ [IValues k max]) (si_new (K * V))) = rs1 ++ [RVals (match max with 0 => full | _ => firstn max full end)] /\
    StronglySorted (fun a b => R (k, a) (k, b)) full /\ forall v, In v full <-> present h (k, v) /\ ~ R (k, v) (k, d).
Proof.
  intros K V lt R d keq HL HK O KT h k max. destruct (C37_std K V lt R d keq HL HK O KT (h ++ [IValues k max])) as (s & S).
  apply runs_snoc in S. destruct S as (rs1 & r & s1 & -> & S1 & _ & _ & (l & -> & full & F1 & F2 & ->) & _). exists rs1, full. split; auto. split; auto.
  intros v. rewrite F2.
  assert (eqd : forall p q : K * V, p = q \/ p <> q).
  { intros p q. destruct O as (O1 & _ & O3). destruct (O3 p q) as [H|[H|H]]; auto; right; intros ->; eapply O1, H. }
  assert (W : In (k, v) (i_pairs s1) <-> present ([] ++ h) (k, v)).
  { apply (runs_present _ _ _ (std_mem _ _ _ d eqd) _ _ _ _ S1 []). intros q. split; [intros []|]. intros N. now apply present_nil in N. }
  cbn [app] in W. now rewrite W.
Qed.
(** StdIndexStr. *)
Definition str_lt (x y : bytes) : bool := match cmp_pair cmp_lexical x y with Some Lt => true | _ => false end.
Definition str_index := si_runs bytes bytes bytes str_lt serialize_pair deserialize_pair [] beqb.
Lemma str_lt_spec a b c d : small (a, b) -> small (c, d) -> str_lt (serialize_pair a b) (serialize_pair c d) = true <-> by_key_value bcmp (a, b) (c, d).
Proof.
  intros [A1 A2] [B1 B2]. rewrite <- (pltc_by _ C37_lexical_linear). unfold str_lt, cmp_pair, pltc, pcmp, cmp_lexical. rewrite !pair_round by auto. cbn. destruct (bcmp a c); [destruct (bcmp b d)| |]; split; congruence.
Qed.
Lemma bkv_order : strict_order (by_key_value bcmp) /\ keys_together (by_key_value bcmp).
Proof.
  destruct C37_lexical_linear as (L1 & L2 & L3). pose proof (pltc_by _ C37_lexical_linear) as W. split; [split; [|split]|].
  - intros a H. apply W in H. now apply (pirr bcmp L1) in H.
  - intros a b c H1 H2. apply W in H1, H2. apply W. eapply (ptrans bcmp L1 L3); eauto.
  - intros a b. rewrite <- !W. apply (ptot bcmp L1 L2).
  - intros k v v' q H1 H2. apply W in H1, H2. eapply (pcontig bcmp L1 L2); eauto.
Qed.
Theorem C37_std_str : forall h, Forall fits h -> exists s, spec_runs (std_spec (by_key_value bcmp) []) h i_new (fst (str_index h (si_new bytes))) s.
Proof.
  intros h F. destruct bkv_order as ((O1 & O2 & O3) & KT). unfold str_index.
  destruct (std_runs bytes bytes bytes str_lt serialize_pair deserialize_pair [] beqb (by_key_value bcmp) small O1 O2 O3 beqb_iff KT str_lt_spec
    (fun a b H => pair_round a b (proj1 H) (proj2 H)) h (si_new bytes) i_new) as (s & S & _).
  - split; auto. cbn. split; auto. split; [constructor|]. split; auto. discriminate.
  - eapply Forall_impl; [|exact F]. intros c. destruct c; cbn; auto. intros Hk. split; auto. reflexivity.
  - eauto.
Qed.
Theorem C37_std_str_get_values : forall h k max, Forall fits h -> (blen k < two64)%N -> exists rs1 full,
    fst (str_index (h ++ [IValues k max]) (si_new bytes)) = rs1 ++ [RVals (match max with 0 => full | _ => firstn max full end)] /\
    StronglySorted blt full /\ forall v, In v full <-> present h (k, v).
Proof.
  intros h k max F Hk. destruct (C37_std_str (h ++ [IValues k max])) as (s & S); [apply Forall_app; auto|].
  apply runs_snoc in S. destruct S as (rs1 & r & s1 & -> & S1 & _ & _ & (l & -> & full & F1 & F2 & ->) & _). exists rs1, full. split; auto.
  assert (B : forall a b, by_key_value bcmp (k, a) (k, b) -> blt a b) by (intros a b [H|[_ H]]; auto; cbn in H; rewrite bcmp_refl in H; discriminate).
  split; [eapply SS_ext; [exact B|exact F1]|]. intros v. rewrite F2.
  assert (W : In (k, v) (i_pairs s1) <-> present ([] ++ h) (k, v)).
  { apply (runs_present _ _ _ (std_mem _ _ _ [] pair_dec) _ _ _ _ S1 []). intros q. split; [intros []|]. intros N. now apply present_nil in N. }
  cbn [app] in W. rewrite W. split; [tauto|]. intros H. split; auto. intros N. apply B in N. destruct v; discriminate.
Qed.

(** The claim fails for an order of keys which does not tell them apart, such as that of PairLexicalCaseKeyComparator, documented as
    compatible: after Add("Foo", "1") and Add("foo", "2"), GetValues("foo") stops at the pair of "Foo" and returns nothing. *)
Definition s_Foo := [70; 111; 111]%N. Definition s_foo := [102; 111; 111]%N.
Definition at0 (r : option bytes) : nat -> option bytes := fun i => if i =? 0 then r else None.
Theorem C37_case_order_refuted : exists rs o,
  ix_runs (db_order case_compare) [IAdd s_Foo [49%N]; IAdd s_foo [50%N]; IValues s_foo 0; ICheck s_foo [50%N]] o_empty rs o /\
  rs = [RCode SUCCESS; RCode SUCCESS; RVals []; RBool true] /\
  present [IAdd s_Foo [49%N]; IAdd s_foo [50%N]] (s_foo, [50%N]).
Proof.
  set (p1 := serialize_pair s_Foo [49%N]). set (p2 := serialize_pair s_foo [50%N]). set (q := serialize_pair s_foo []).
  exists [RCode SUCCESS; RCode SUCCESS; RVals []; RBool true], (mkO [(p1, []); (p2, [])] (at0 (Some p1))). split; [|split; [reflexivity|]].
  - apply ixr_cons with (o1 := mkO [(p1, [])] (fun _ => None)).
    { apply (ix_add _ s_Foo [49%N] o_empty SUCCESS _ SUCCESS []). cbn [ostep]. repeat split; vm_compute; reflexivity. }
    apply ixr_cons with (o1 := mkO [(p1, []); (p2, [])] (fun _ => None)).
    { apply (ix_add _ s_foo [50%N] _ SUCCESS _ SUCCESS []). cbn [ostep]. repeat split; vm_compute; reflexivity. }
    apply ixr_cons with (o1 := mkO [(p1, []); (p2, [])] (at0 (Some p1))).
    { apply (ix_values _ s_foo 0 _ SUCCESS (mkO [(p1, []); (p2, [])] (at0 (Some q))) [] (Some [])).
      - cbn [ostep]. repeat split; try (vm_compute; reflexivity).
      - apply vl_other with (rec := p1) (rk := s_Foo) (rv := [49%N]); [lia| |reflexivity|discriminate].
        cbn [ostep]. vm_compute o_pos. split; [intros i; destruct i; vm_compute; reflexivity|]. vm_compute. repeat split; reflexivity. }
    eapply ixr_cons; [|apply ixr_nil].
    apply (ix_check _ s_foo [50%N] _ SUCCESS _ SUCCESS []). cbn [ostep]. repeat split; vm_compute; reflexivity.
  - exists [IAdd s_Foo [49%N]], []. auto.
Qed.
(** The claim fails for StdIndex when values are below VALUETYPE(), such as negative numbers. *)
Definition zlt (p q : Z * Z) : bool := (fst p <? fst q)%Z || (fst p =? fst q)%Z && (snd p <? snd q)%Z.
Theorem C37_std_negative_refuted : fst (std_index zlt 0%Z Z.eqb [IAdd 1 (-5); IAdd 1 7; ICheck 1 (-5); IValues 1 0]%Z (si_new (Z * Z))) =
  [RVoid; RVoid; RBool true; RVals [7%Z]] /\ present [IAdd 1 (-5); IAdd 1 7]%Z (1, -5)%Z.
Proof.
  split; [vm_compute; reflexivity|]. exists [], [IAdd 1 7]%Z. split; [reflexivity|]. split; [intros [H|[]]; discriminate|intros [H|[]]; discriminate].
Qed.

(** Concrete cases. *)
Example C37_zlt_order : strict_order (fun p q => zlt p q = true) /\ keys_together (fun p q => zlt p q = true).
Proof.
  assert (W : forall p q, zlt p q = true <-> (fst p < fst q \/ fst p = fst q /\ snd p < snd q)%Z).
  { intros p q. unfold zlt. rewrite orb_true_iff, andb_true_iff, !Z.ltb_lt, Z.eqb_eq. tauto. }
  split; [split; [|split]|].
  - intros a H. apply W in H. lia.
  - intros a b c H1 H2. apply W in H1, H2. apply W. lia.
  - intros [a b] [c d]. rewrite !W. cbn. destruct (Z.lt_trichotomy a c) as [|[->|]]; [right; left; lia| |right; right; lia].
    destruct (Z.lt_trichotomy b d) as [|[->|]]; [right; left; lia|left; reflexivity|right; right; lia].
  - intros k v v' [a b] H1 H2. apply W in H1, H2. cbn in *. lia.
Qed.
Example C37_std_case : fst (std_index zlt 0%Z Z.eqb [IAdd 2 9; IAdd 1 7; IAdd 1 3; IAdd 1 7; IJump 0 1 4; IGet 0; IRemove 1 7; IGet 0; IPrev 0; IGet 0; IValues 1 0; ICount]%Z (si_new (Z * Z))) =
  [RVoid; RVoid; RVoid; RVoid; RVoid; RRec (Some (1, 7)); RVoid; RRec (Some (2, 9)); RVoid; RRec (Some (1, 3)); RVals [3]; RNum 2]%Z.
Proof. vm_compute. reflexivity. Qed.
Example C37_str_case : fst (str_index [IAdd [98] [2]; IAdd [97] [5]; IAdd [97] []; IAdd [97; 98] [1]; IValues [97] 0; IValues [97] 1; IRemove [97] []; IValues [97] 0]%N (si_new bytes)) =
  [RVoid; RVoid; RVoid; RVoid; RVals [[]; [5]]; RVals [[]]; RVoid; RVals [[5]]]%N.
Proof. vm_compute. reflexivity. Qed.
Example C37_database_case : exists rs o, ix_runs (db_order bcmp) ([IAdd [98] [2]; IAdd [97] [5]; IAdd [97] []; IRemove [98] [2]] ++ [IValues [97] 0])%N o_empty rs o.
Proof.
  apply (C37_database (db_order bcmp) bcmp (C37_order_exists _ C37_lexical_linear) C37_lexical_linear).
  repeat (apply Forall_cons; [cbn; repeat split; reflexivity|]). constructor.
Qed.
Example C37_present_case : present [IAdd [97] [5]; IRemove [97] [5]; IAdd [97] [5]; IAdd [97] [6]]%N ([97], [5])%N.
Proof. exists [IAdd [97] [5]; IRemove [97] [5]]%N, [IAdd [97] [6]]%N. split; [reflexivity|]. split; intros [H|[]]; discriminate. Qed.

Print Assumptions C37_database.
Print Assumptions C37_get_values.
Print Assumptions C37_check_count.
Print Assumptions C37_std.
Print Assumptions C37_std_get_values.
Print Assumptions C37_std_str.
Print Assumptions C37_std_str_get_values.
Print Assumptions C37_case_order_refuted.
Print Assumptions C37_std_negative_refuted.
