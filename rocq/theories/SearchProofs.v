(** Proofs about searching texts for words and databases for keys. *)
From Coq Require Import List NArith ZArith Bool Arith Lia Sorted.
Import ListNotations.
From Verif Require Import Bytes BytesOrder StatusModel DbmModel StrSearchModel StrSearchProofs StrSearchProps OmapSpec OmapHist OmapFacts
  PathModel PathSpec PathProofs SearchModel.
Local Open Scope nat_scope.

(* ---- specification of words ---- *)
Definition alnum (c : N) : Prop := (48 <= c <= 57 \/ 65 <= c <= 90 \/ 97 <= c <= 122)%N.
(** A letter or digit lies on each side of the position. *)
Definition inside_word (t : bytes) (i : nat) : Prop :=
  exists c d, 0 < i /\ nth_error t (i - 1) = Some c /\ nth_error t i = Some d /\ alnum c /\ alnum d.
Definition word_at (t p : bytes) (i : nat) : Prop :=
  occurs_at t p i /\ ~ inside_word t i /\ ~ inside_word t (i + length p).
(** The result is the first position with a property, or a miss if there is none. *)
Definition first_hit_of (P : nat -> Prop) (r : wres) : Prop :=
  match r with WHit i => P i /\ (forall j, j < i -> ~ P j) | WMiss => forall j, ~ P j | WBad => False end.

Lemma isalnum_spec c : isalnum c = true <-> alnum c.
Proof.
  unfold isalnum, alnum. rewrite !orb_true_iff, !andb_true_iff, !N.leb_le. tauto.
Qed.
Lemma isalnum_lower c : isalnum (lower c) = isalnum c.
Proof.
  unfold lower. destruct ((65 <=? c) && (c <=? 90))%N eqn:E; auto.
  apply andb_prop in E as [E1 E2]. apply N.leb_le in E1, E2.
  apply eq_iff_eq_true. rewrite !isalnum_spec. unfold alnum. lia.
Qed.
Lemma left_split_spec t i n : 0 < n -> i + n <= length t ->
  exists b, left_split t i = Some b /\ (b = true <-> inside_word t i).
Proof.
  intros Hn Hi. unfold left_split, alnum_at. destruct (Nat.eqb_spec i 0) as [->|Hne].
  - exists false. split; auto. split; [discriminate|]. intros (c & d & H & _). lia.
  - destruct (nth_error t (i - 1)) as [c|] eqn:Ec; [|apply nth_error_None in Ec; lia].
    destruct (nth_error t i) as [d|] eqn:Ed; [|apply nth_error_None in Ed; lia]. cbn [option_map andthen].
    destruct (isalnum c) eqn:Ac; cbn [andthen]; eexists; (split; [reflexivity|]).
    + rewrite isalnum_spec. split.
      * intros H. exists c, d. repeat split; auto; [lia|]. now apply isalnum_spec.
      * intros (c' & d' & _ & _ & Hd & _ & H). congruence.
    + split; [discriminate|]. intros (c' & d' & _ & Hc & _ & H & _). apply isalnum_spec in H. congruence.
Qed.
Lemma right_split_spec t i n : 0 < n -> i + n <= length t ->
  exists b, right_split t i n = Some b /\ (b = true <-> inside_word t (i + n)).
Proof.
  intros Hn Hi. unfold right_split, alnum_at. destruct (Nat.eqb_spec (i + n) (length t)) as [E|Hne].
  - exists false. split; auto. split; [discriminate|]. intros (c & d & _ & _ & H & _).
    assert (i + n < length t) by (apply nth_error_Some; congruence). lia.
  - destruct (nth_error t (i + n)) as [d|] eqn:Ed; [|apply nth_error_None in Ed; lia].
    destruct (nth_error t (i + n - 1)) as [c|] eqn:Ec; [|apply nth_error_None in Ec; lia]. cbn [option_map andthen].
    destruct (isalnum d) eqn:Ad; cbn [andthen]; eexists; (split; [reflexivity|]).
    + rewrite isalnum_spec. split.
      * intros H. exists c, d. repeat split; auto; [lia|]. now apply isalnum_spec.
      * intros (c' & d' & _ & Hc & _ & H & _). congruence.
    + split; [discriminate|]. intros (c' & d' & _ & _ & Hd & _ & H). apply isalnum_spec in H. congruence.
Qed.
Lemma occurs_bound t p i : occurs_at t p i -> i + length p <= length t.
Proof. intros H. now apply occurs_mt in H. Qed.
Lemma occurs_empty t : occurs_at t [] 0.
Proof. exists [], t. auto. Qed.
Lemma word_empty t : word_at t [] 0.
Proof. split; [apply occurs_empty|]. cbn. split; intros (c & d & H & _); lia. Qed.

(* ---- StrWordSearch ---- *)
Lemma word_loop_spec t p : p <> [] -> forall fuel rp, length t < fuel + rp -> (forall j, j < rp -> ~ word_at t p j) ->
  first_hit_of (word_at t p) (word_loop fuel t p rp).
Proof.
  intros Hp. assert (Hl : 0 < length p) by (destruct p; [congruence|cbn; lia]).
  induction fuel as [|f IH]; intros rp Hf Hb; cbn [word_loop].
  - intros j Hj. pose proof (occurs_bound _ _ _ (proj1 Hj)). apply (Hb j); [lia|exact Hj].
  - destruct (Nat.leb_spec (length t) rp) as [Hr|Hr].
    + intros j Hj. pose proof (occurs_bound _ _ _ (proj1 Hj)). apply (Hb j); [lia|exact Hj].
    + pose proof (sv_find_spec t p rp) as Hs. destruct (sv_find t p rp) as [i|].
      * destruct Hs as (Hi & Hm & Hs). pose proof (mt_bound _ _ _ Hp Hm) as Hbd.
        assert (Ho : occurs_at t p i) by (apply occurs_mt; auto).
        assert (Hbi : forall j, j < i -> ~ word_at t p j).
        { intros j Hj Hw. destruct (Nat.lt_ge_cases j rp) as [H|H]; [now apply (Hb j)|].
          apply (Hs j); [lia|]. apply occurs_mt, (proj1 Hw). }
        assert (Hnext : ~ word_at t p i -> first_hit_of (word_at t p) (word_loop f t p (S i))).
        { intros Hno. apply IH; [lia|]. intros j Hj. destruct (Nat.eq_dec j i) as [->|]; auto. apply Hbi. lia. }
        destruct (left_split_spec t i _ Hl Hbd) as (b1 & -> & H1).
        destruct b1; [apply Hnext; intros (_ & Hw & _); apply Hw, H1; reflexivity|].
        destruct (right_split_spec t i _ Hl Hbd) as (b2 & -> & H2).
        destruct b2; [apply Hnext; intros (_ & _ & Hw); apply Hw, H2; reflexivity|].
        split; auto. split; auto. split; intros H; [apply H1 in H|apply H2 in H]; discriminate.
      * intros j Hj. destruct (Nat.lt_ge_cases j rp) as [H|H]; [now apply (Hb j)|].
        pose proof (occurs_bound _ _ _ (proj1 Hj)). apply (Hs j); [lia|]. apply occurs_mt, (proj1 Hj).
Qed.
Lemma word_search_spec t p : first_hit_of (word_at t p) (word_search t p).
Proof.
  unfold word_search. destruct (Nat.ltb_spec (length t) (length p)) as [H|H].
  - intros j Hj. pose proof (occurs_bound _ _ _ (proj1 Hj)). lia.
  - destruct p as [|c p]; [split; [apply word_empty|intros; lia]|].
    apply word_loop_spec; [discriminate|lia|intros; lia].
Qed.
Lemma lower_word_search_spec t p : first_hit_of (word_at (lower_case t) p) (lower_word_search t p).
Proof.
  unfold lower_word_search. destruct p as [|c p]; [split; [apply word_empty|intros; lia]|].
  apply word_loop_spec; [discriminate| |intros; lia]. unfold lower_case. rewrite map_length. lia.
Qed.

(* ---- StrCaseSearch ---- *)
Lemma lower_prefix_same t p : lower_prefix t p = same_prefix (lower_case t) p.
Proof. revert t; induction p as [|c p IH]; intros [|d t]; cbn; auto. now rewrite IH. Qed.
Lemma skipn_lower i t : lower_case (skipn i t) = skipn i (lower_case t).
Proof. unfold lower_case. symmetry. apply skipn_map. Qed.
Lemma inside_lower t i : inside_word (lower_case t) i <-> inside_word t i.
Proof.
  assert (Hn : forall j c, nth_error (lower_case t) j = Some c <-> exists c', nth_error t j = Some c' /\ c = lower c').
  { intros j c. unfold lower_case. rewrite nth_error_map. destruct (nth_error t j) as [c'|]; cbn.
    - split; [intros E; injection E as <-; eauto|intros (x & E & ->); congruence].
    - split; [discriminate|intros (x & E & _); discriminate]. }
  assert (Ha : forall c, alnum (lower c) <-> alnum c) by (intros c; now rewrite <- !isalnum_spec, isalnum_lower).
  split.
  - intros (c & d & H0 & Hc & Hd & Ac & Ad). apply Hn in Hc as (c' & Hc & ->). apply Hn in Hd as (d' & Hd & ->).
    exists c', d'. rewrite Ha in Ac, Ad. auto.
  - intros (c & d & H0 & Hc & Hd & Ac & Ad). exists (lower c), (lower d). rewrite !Ha. repeat split; auto; apply Hn; eauto.
Qed.
Definition case_at (word : bool) (t p : bytes) (i : nat) : Prop :=
  if word then word_at (lower_case t) (lower_case p) i else occurs_at (lower_case t) (lower_case p) i.
Lemma case_at_occurs w t p i : case_at w t p i -> occurs_at (lower_case t) (lower_case p) i.
Proof. destruct w; auto. intros H. apply H. Qed.
Lemma case_loop_spec w t p : p <> [] -> forall fuel i, length t < fuel + i + length p -> (forall j, j < i -> ~ case_at w t p j) ->
  first_hit_of (case_at w t p) (case_loop fuel w t (lower_case p) i).
Proof.
  intros Hp. assert (Hl : 0 < length p) by (destruct p; [congruence|cbn; lia]).
  assert (Lt : length (lower_case t) = length t) by apply map_length.
  assert (Lp : length (lower_case p) = length p) by apply map_length.
  induction fuel as [|f IH]; intros i Hf Hb; cbn [case_loop].
  - intros j Hj. pose proof (occurs_bound _ _ _ (case_at_occurs _ _ _ _ Hj)) as H. rewrite Lt, Lp in H.
    apply (Hb j); [lia|exact Hj].
  - assert (Hnext : ~ case_at w t p i -> first_hit_of (case_at w t p) (case_loop f w t (lower_case p) (S i))).
    { intros Hno. apply IH; [lia|]. intros j Hj. destruct (Nat.eq_dec j i) as [->|]; auto. apply Hb. lia. }
    rewrite lower_prefix_same, skipn_lower.
    destruct (same_prefix (skipn i (lower_case t)) (lower_case p)) eqn:E.
    + apply match_spec in E. assert (Hne : lower_case p <> []) by (destruct p; [congruence|discriminate]).
      pose proof (mt_bound _ _ _ Hne E) as Hbd. assert (Ho : occurs_at (lower_case t) (lower_case p) i) by (apply occurs_mt; auto).
      destruct w; [|split; auto]. rewrite Lt, Lp in Hbd.
      destruct (left_split_spec t i _ Hl Hbd) as (b1 & -> & H1).
      destruct b1; [apply Hnext; intros (_ & Hw & _); apply Hw, inside_lower, H1; reflexivity|].
      rewrite Lp. destruct (right_split_spec t i _ Hl Hbd) as (b2 & -> & H2).
      destruct b2; [apply Hnext; intros (_ & _ & Hw); apply Hw; rewrite Lp; apply inside_lower, H2; reflexivity|].
      split; auto. split; auto. rewrite Lp. split; intros H; apply (proj1 (inside_lower t _)) in H; [apply H1 in H|apply H2 in H]; discriminate.
    + apply Hnext. intros H. apply case_at_occurs, occurs_mt in H. apply match_spec_false in E. tauto.
Qed.
Lemma case_search_gen_spec w t p : first_hit_of (case_at w t p) (case_search_gen w t p).
Proof.
  unfold case_search_gen. destruct (Nat.ltb_spec (length t) (length p)) as [H|H].
  - intros j Hj. pose proof (occurs_bound _ _ _ (case_at_occurs _ _ _ _ Hj)) as Hb. unfold lower_case in Hb. rewrite !map_length in Hb. lia.
  - destruct p as [|c p].
    + split; [|intros; lia]. destruct w; [apply word_empty|apply occurs_empty].
    + apply case_loop_spec; [discriminate|lia|intros; lia].
Qed.
Lemma hit_spec P r : first_hit_of P r -> exists b, hit r = Some b /\ (b = true <-> exists i, P i).
Proof.
  destruct r as [i| |]; cbn; intros H; [| |contradiction].
  - exists true. split; auto. split; auto. intros _. exists i. apply H.
  - exists false. split; auto. split; [discriminate|]. intros [i Hi]. now apply H in Hi.
Qed.
Lemma any_hit_spec (f : bytes -> bytes -> option bool) (Q : bytes -> Prop) t ps :
  (forall p, In p ps -> exists b, f t p = Some b /\ (b = true <-> Q p)) ->
  exists b, any_hit f t ps = Some b /\ (b = true <-> exists p, In p ps /\ Q p).
Proof.
  induction ps as [|p ps IH]; intros H; cbn [any_hit].
  - exists false. split; auto. split; [discriminate|]. intros (p & [] & _).
  - destruct (H p (or_introl eq_refl)) as (b & -> & Hb). destruct b.
    + exists true. split; auto. split; auto. intros _. exists p. split; [now left|]. now apply Hb.
    + destruct IH as (b & -> & Hb'); [intros q Hq; apply H; now right|]. exists b. split; auto. rewrite Hb'. split.
      * intros (q & Hq & HQ). exists q. split; auto. now right.
      * intros (q & [<-|Hq] & HQ); [apply Hb in HQ; discriminate|]. eauto.
Qed.
Lemma contains_spec t p : contains t p = true <-> exists i, occurs_at t p i.
Proof.
  unfold contains. pose proof (sv_find_spec t p 0) as H. destruct (sv_find t p 0) as [i|].
  - split; auto. intros _. destruct H as (Hi & Hm & Hmin). exists i. apply occurs_mt. split; auto.
    destruct p as [|c p]; [cbn; lia|]. apply mt_bound; [discriminate|exact Hm].
  - split; [discriminate|]. intros [i Ho]. apply occurs_mt in Ho as [Hm Hb]. exfalso. apply (H i); [lia|exact Hm].
Qed.
Lemma begins_spec t p : begins_with t p = true <-> exists s, t = p ++ s.
Proof.
  unfold begins_with. destruct (Nat.ltb_spec (length t) (length p)) as [H|H].
  - split; [discriminate|]. intros [s ->]. rewrite app_length in H. lia.
  - rewrite beqb_eq. split.
    + intros E. exists (skipn (length p) t). rewrite <- E at 1. symmetry. apply firstn_skipn.
    + intros [s ->]. rewrite firstn_app, Nat.sub_diag, firstn_all. cbn. apply app_nil_r.
Qed.
Lemma ends_spec t p : ends_with t p = true <-> exists s, t = s ++ p.
Proof.
  unfold ends_with. destruct (Nat.ltb_spec (length t) (length p)) as [H|H].
  - split; [discriminate|]. intros [s ->]. rewrite app_length in H. lia.
  - rewrite beqb_eq. split.
    + intros E. exists (firstn (length t - length p) t).
      transitivity (firstn (length t - length p) t ++ skipn (length t - length p) t); [symmetry; apply firstn_skipn|now rewrite E].
    + intros [s ->]. rewrite app_length, Nat.add_sub, skipn_app, skipn_all, Nat.sub_diag. reflexivity.
Qed.

(* ---- the scan of a database ---- *)
Lemma search_each cap f mt_ recs : (forall k, mt_ k = Some (f k)) -> forall m,
  snd (o_each recs (exporter cap mt_) false (Some m)) =
  Some (m ++ firstn (N.to_nat cap - length m) (filter f (map fst recs))).
Proof.
  intros Hf. induction recs as [|[k v] recs IH]; intros m; cbn [o_each map filter fst].
  - cbn. now rewrite firstn_nil, app_nil_r.
  - cbn [on_full exporter]. rewrite Hf.
    destruct (N.ltb_spec (N.of_nat (length m)) cap) as [H|H].
    + destruct (f k) eqn:Ek.
      * specialize (IH (m ++ [k])). destruct (o_each recs _ false (Some (m ++ [k]))) as [r' s2]. cbn [snd] in *. rewrite IH.
        rewrite <- app_assoc. do 2 f_equal. rewrite app_length. cbn [length].
        replace (N.to_nat cap - length m) with (S (N.to_nat cap - (length m + 1))) by lia. reflexivity.
      * specialize (IH m). destruct (o_each recs _ false (Some m)) as [r' s2]. exact IH.
    + specialize (IH m). destruct (o_each recs _ false (Some m)) as [r' s2]. cbn [snd] in *. rewrite IH.
      replace (N.to_nat cap - length m) with 0 by lia. now rewrite !firstn_O.
Qed.
(** At most so many, all if zero. *)
Definition cut {T} (capacity : N) (l : list T) : list T := if (capacity =? 0)%N then l else firstn (N.to_nat capacity) l.
Lemma cut_limit {T} capacity (l : list T) : (N.of_nat (length l) < 18446744073709551616)%N -> firstn (N.to_nat (limit capacity)) l = cut capacity l.
Proof.
  intros H. unfold cut, limit. destruct (N.eqb_spec capacity 0) as [->|Hne]; auto. apply firstn_all2. lia.
Qed.
Lemma filter_len {T} (f : T -> bool) l : length (filter f l) <= length l.
Proof. induction l as [|x l IH]; cbn; auto. destruct (f x); cbn; lia. Qed.
Lemma search_dbm_spec f mt_ recs capacity : (forall k, mt_ k = Some (f k)) -> (N.of_nat (length recs) < 18446744073709551616)%N ->
  search_dbm recs mt_ capacity = Some (cut capacity (filter f (map fst recs))).
Proof.
  intros Hf Hn. unfold search_dbm. rewrite (search_each _ f) by exact Hf. cbn [app length]. rewrite Nat.sub_0_r. f_equal. apply cut_limit.
  pose proof (filter_len f (map fst recs)). rewrite map_length in H. lia.
Qed.

(* ---- ordered databases ---- *)
Section Ordered.
  Variable cmp : bytes -> bytes -> comparison.
  Hypothesis cmp_opp : forall a b, cmp b a = CompOpp (cmp a b).
  Hypothesis cmp_le_trans : forall a b c, cmp a b <> Gt -> cmp b c <> Gt -> cmp a c <> Gt.
  (** A property that holds from some record on. *)
  Definition upward (f : bytes * bytes -> bool) (L : omap) : Prop := StronglySorted (fun a b => f a = true -> f b = true) L.
  Lemma upward_split f L : upward f L -> exists A, L = A ++ filter f L /\ find f L = hd_error (filter f L).
  Proof.
    induction 1 as [|r L HL (A & E & Ef) Hr]; [exists []; auto|]. cbn. destruct (f r) eqn:Er.
    - exists []. split; auto. cbn. f_equal. clear - Hr Er. induction Hr as [|x L Hx HL IH]; cbn; auto.
      rewrite Hx by auto. now f_equal.
    - exists (r :: A). cbn. split; [now f_equal|exact Ef].
  Qed.
  Definition downward (f : bytes * bytes -> bool) (L : omap) : Prop := StronglySorted (fun a b => f b = true -> f a = true) L.
  Lemma find_none_all {T} (f : T -> bool) l : Forall (fun x => f x = false) l -> find f l = None.
  Proof. induction 1 as [|x l Hx _ IH]; cbn; auto. now rewrite Hx. Qed.
  Lemma downward_split f L : downward f L -> exists B, L = filter f L ++ B /\ find f (rev L) = hd_error (rev (filter f L)).
  Proof.
    induction 1 as [|r L HL (B & E & Ef) Hr]; [exists []; auto|]. cbn [filter rev]. destruct (f r) eqn:Er.
    - exists B. split; [cbn; now f_equal|]. cbn [rev].
      assert (G : forall T (g : T -> bool) l x, find g (l ++ [x]) = match find g l with Some y => Some y | None => if g x then Some x else None end).
      { intros T g l x. induction l as [|y l IH]; cbn; auto. destruct (g y); auto. }
      rewrite G, Ef, Er. destruct (rev (filter f L)) as [|y l]; reflexivity.
    - exists (r :: L). assert (Hall : Forall (fun x => f x = false) L).
      { eapply Forall_impl; [|exact Hr]. cbn. intros x Hx. destruct (f x); auto. symmetry; auto. }
      assert (filter f L = []) as -> by (clear - Hall; induction Hall as [|x L Hx _ IH]; cbn; auto; now rewrite Hx).
      split; auto. apply find_none_all. apply Forall_app. split; [now apply Forall_rev|]. repeat constructor. exact Er.
  Qed.

  (** Reading the key of the record at the iterator. *)
  Lemma read_at A k v B o cd o1 st : ascending cmp (A ++ (k, v) :: B) -> o_recs o = A ++ (k, v) :: B ->
    (exists k0, o_pos o 0 = Some k0 /\ o_ge cmp k0 (A ++ (k, v) :: B) = Some (k, v)) ->
    ostep cmp bytes (KItProcess 0 get_key false) o [] cd o1 st ->
    cd = SUCCESS /\ st = k /\ o_recs o1 = A ++ (k, v) :: B /\ o_pos o1 0 = Some k.
  Proof.
    intros Hs E (k0 & P & G) W. cbn [ostep] in W. rewrite P, E, G in W. destruct W as (M & -> & W1 & W2).
    unfold o_process, o_call in W1, W2. rewrite (find_mid cmp cmp_opp _ _ _ _ Hs) in W1, W2. cbn in W1, W2.
    repeat split; auto. rewrite (M 0). reflexivity.
  Qed.
  Lemma read_end L o cd o1 st : o_recs o = L -> (o_pos o 0 = None \/ exists k0, o_pos o 0 = Some k0 /\ o_ge cmp k0 L = None) ->
    ostep cmp bytes (KItProcess 0 get_key false) o [] cd o1 st -> cd = NOT_FOUND_ERROR.
  Proof.
    intros E H W. cbn [ostep] in W. destruct H as [P|(k0 & P & G)]; rewrite P in W; [apply W|]. rewrite E, G in W. apply W.
  Qed.
  Definition at_head (o : ost) (L : omap) (r : option (bytes * bytes)) : Prop :=
    match o_pos o 0 with None => r = None | Some k => o_ge cmp k L = r end.
  Lemma at_head_key o A k v B : ascending cmp (A ++ (k, v) :: B) -> o_pos o 0 = Some k -> at_head o (A ++ (k, v) :: B) (Some (k, v)).
  Proof. intros Hs P. unfold at_head. rewrite P. apply (ge_mid cmp cmp_opp _ _ _ _ Hs). Qed.

  Lemma up_loop cap : forall B A o m cd out, ascending cmp (A ++ B) -> o_recs o = A ++ B -> at_head o (A ++ B) (hd_error B) ->
    order_loop cmp true cap o m cd out -> cd = SUCCESS /\ out = m ++ firstn (N.to_nat cap - length m) (map fst B).
  Proof.
    induction B as [|[k v] B IH]; intros A o m cd out Hs E P W.
    - cbn [map]. rewrite firstn_nil, app_nil_r.
      assert (R : forall cd o1 st, ostep cmp bytes (KItProcess 0 get_key false) o [] cd o1 st -> cd = NOT_FOUND_ERROR).
      { intros cd0 o1 st. apply (read_end (A ++ []) o); auto. unfold at_head in P. destruct (o_pos o 0) as [k0|]; [right; exists k0; auto|now left]. }
      inversion W; subst; auto;
        match goal with H : ostep _ _ _ _ _ _ _ _ |- _ => apply R in H; try congruence; try discriminate H end.
    - assert (Hk : exists k0, o_pos o 0 = Some k0 /\ o_ge cmp k0 (A ++ (k, v) :: B) = Some (k, v)).
      { unfold at_head in P. destruct (o_pos o 0) as [k0|]; [exists k0; auto|discriminate]. }
      pose proof (fun cd o1 st => read_at A k v B o cd o1 st Hs E Hk) as R.
      inversion W as [o0 m0 Hc|o0 m0 o1 key Hc W1|o0 m0 o1 key cd0 Hc W1 N1 N2|o0 m0 o1 key cd0 o2 key2 Hc W1 W2 N1|o0 m0 o1 key o2 key2 cd0 out0 Hc W1 W2 W3]; subst.
      + split; auto. replace (N.to_nat cap - length out) with 0 by lia. cbn. now rewrite app_nil_r.
      + destruct (R _ _ _ W1) as (H & _). discriminate.
      + destruct (R _ _ _ W1) as (H & _). congruence.
      + destruct (R _ _ _ W1) as (_ & -> & E1 & P1). cbn [ostep] in W2. rewrite P1 in W2. destruct W2 as (_ & _ & -> & _). congruence.
      + destruct (R _ _ _ W1) as (_ & -> & E1 & P1). cbn [ostep] in W2. rewrite P1 in W2. destruct W2 as (E2 & _ & _ & M).
        specialize (M 0). cbn [Nat.eqb] in M. rewrite E1, (gt_mid cmp cmp_opp _ _ _ _ Hs) in M.
        assert (Ea : A ++ (k, v) :: B = (A ++ [(k, v)]) ++ B) by (rewrite <- app_assoc; reflexivity).
        rewrite Ea in Hs, E1.
        destruct (IH (A ++ [(k, v)]) o2 (m ++ [k]) cd out Hs) as [-> ->]; [congruence| |exact W3|].
        { unfold at_head. destruct B as [|[k' v'] B]; cbn in M; rewrite M; auto. cbn [hd_error]. apply (ge_mid cmp cmp_opp _ _ _ _ Hs). }
        split; auto. rewrite <- app_assoc. f_equal. rewrite app_length. cbn [length map fst].
        replace (N.to_nat cap - length m) with (S (N.to_nat cap - (length m + 1))) by lia. reflexivity.
  Qed.
  Lemma down_loop cap : forall A B o m cd out, ascending cmp (A ++ B) -> o_recs o = A ++ B -> at_head o (A ++ B) (hd_error (rev A)) ->
    (A = [] -> o_pos o 0 = None) ->
    order_loop cmp false cap o m cd out -> cd = SUCCESS /\ out = m ++ firstn (N.to_nat cap - length m) (rev (map fst A)).
  Proof.
    induction A as [|[k v] A IH] using rev_ind; intros B o m cd out Hs E P Pn W.
    - cbn [map rev]. rewrite firstn_nil, app_nil_r.
      assert (R : forall cd o1 st, ostep cmp bytes (KItProcess 0 get_key false) o [] cd o1 st -> cd = NOT_FOUND_ERROR).
      { intros cd0 o1 st. apply (read_end ([] ++ B) o); auto. }
      inversion W; subst; auto;
        match goal with H : ostep _ _ _ _ _ _ _ _ |- _ => apply R in H; try congruence; try discriminate H end.
    - rewrite rev_app_distr in P. cbn [rev app hd_error] in P. rewrite <- app_assoc in Hs, E, P. cbn [app] in Hs, E, P.
      assert (Hk : exists k0, o_pos o 0 = Some k0 /\ o_ge cmp k0 (A ++ (k, v) :: B) = Some (k, v)).
      { unfold at_head in P. destruct (o_pos o 0) as [k0|]; [exists k0; auto|discriminate]. }
      pose proof (fun cd o1 st => read_at A k v B o cd o1 st Hs E Hk) as R.
      rewrite map_app, rev_app_distr. cbn [map rev app fst].
      inversion W as [o0 m0 Hc|o0 m0 o1 key Hc W1|o0 m0 o1 key cd0 Hc W1 N1 N2|o0 m0 o1 key cd0 o2 key2 Hc W1 W2 N1|o0 m0 o1 key o2 key2 cd0 out0 Hc W1 W2 W3]; subst.
      + split; auto. replace (N.to_nat cap - length out) with 0 by lia. cbn. now rewrite app_nil_r.
      + destruct (R _ _ _ W1) as (H & _). discriminate.
      + destruct (R _ _ _ W1) as (H & _). congruence.
      + destruct (R _ _ _ W1) as (_ & -> & E1 & P1). cbn [ostep] in W2. rewrite P1 in W2. destruct W2 as (_ & _ & -> & _). congruence.
      + destruct (R _ _ _ W1) as (_ & -> & E1 & P1). cbn [ostep] in W2. rewrite P1 in W2. destruct W2 as (E2 & _ & _ & r & M & W2 & _).
        rewrite E1, (find_mid cmp cmp_opp _ _ _ _ Hs), (lt_mid cmp cmp_opp _ _ _ _ Hs) in W2. specialize (W2 ltac:(discriminate)).
        specialize (M 0). cbn [Nat.eqb] in M. rewrite W2 in M.
        destruct (IH ((k, v) :: B) o2 (m ++ [k]) cd out Hs) as [-> ->]; [congruence| | |exact W3|].
        { unfold at_head. destruct A as [|[k' v'] A _] using rev_ind; [cbn in M; rewrite M; reflexivity|].
          rewrite rev_app_distr in *. cbn in M. rewrite M. cbn [rev app hd_error]. rewrite <- app_assoc in Hs |- *. cbn [app] in *.
          apply (ge_mid cmp cmp_opp _ _ _ _ Hs). }
        { intros ->. exact M. }
        split; auto. rewrite <- app_assoc. f_equal. rewrite app_length. cbn [length].
        replace (N.to_nat cap - length m) with (S (N.to_nat cap - (length m + 1))) by lia. reflexivity.
  Qed.
  (** The records on the wanted side. *)
  Definition beyond (upper inclusive : bool) (pattern : bytes) (r : bytes * bytes) : bool :=
    match upper, inclusive, cmp pattern (fst r) with
    | true, _, Lt | false, _, Gt | _, true, Eq => true
    | _, _, _ => false
    end.
  Lemma lt_le a b c : cmp a b = Lt -> cmp b c <> Gt -> cmp a c = Lt.
  Proof.
    intros H1 H2. destruct (cmp b c) eqn:E; [|now apply (lt_trans_ cmp cmp_opp cmp_le_trans a b c)|congruence].
    rewrite cmp_opp in E. destruct (cmp c b) eqn:E'; cbn in E; try discriminate.
    rewrite cmp_opp, (eq_cmp cmp cmp_opp cmp_le_trans c b a E'), cmp_opp, H1. reflexivity.
  Qed.
  Lemma beyond_upward incl p L : ascending cmp L -> upward (beyond true incl p) L.
  Proof.
    intros H. eapply StronglySorted_ind with (R := fun a b : bytes * bytes => cmp (fst a) (fst b) = Lt); [constructor| |exact H].
    intros a l Hl IH Ha. constructor; auto. eapply Forall_impl; [|exact Ha]. intros b Hab. cbn in Hab. unfold beyond.
    destruct (cmp p (fst a)) eqn:Ea; intros Hb; [|now rewrite (lt_trans_ cmp cmp_opp cmp_le_trans _ _ _ Ea Hab)|destruct incl; discriminate].
    rewrite (eq_cmp cmp cmp_opp cmp_le_trans _ _ (fst b) Ea), Hab. destruct incl; auto.
  Qed.
  Lemma beyond_downward incl p L : ascending cmp L -> downward (beyond false incl p) L.
  Proof.
    intros H. eapply StronglySorted_ind with (R := fun a b : bytes * bytes => cmp (fst a) (fst b) = Lt); [constructor| |exact H].
    intros a l Hl IH Ha. constructor; auto. eapply Forall_impl; [|exact Ha]. intros b Hab. cbn in Hab. unfold beyond. intros Hb.
    assert (Hle : cmp (fst b) p <> Gt) by (rewrite cmp_opp; destruct (cmp p (fst b)); cbn; destruct incl; congruence).
    rewrite cmp_opp, (lt_le _ _ _ Hab Hle). destruct incl; reflexivity.
  Qed.
  Lemma search_order_spec L pattern upper incl cap matched cd out : ascending cmp L ->
    search_order cmp L pattern upper incl cap matched cd out ->
    cd = SUCCESS /\
    out = matched ++ firstn (N.to_nat cap - length matched)
      (let ks := map fst (filter (beyond upper incl pattern) L) in if upper then ks else rev ks).
  Proof.
    intros Hs W. cbv zeta. destruct upper.
    - destruct (upward_split _ _ (beyond_upward incl pattern L Hs)) as (A & EL & Ef).
      assert (G : at_key (if incl then o_ge cmp pattern L else o_gt cmp pattern L) = at_key (hd_error (filter (beyond true incl pattern) L))).
      { rewrite <- Ef. f_equal. destruct incl; unfold o_ge, o_gt.
        - clear - cmp_opp. induction L as [|r L IH]; cbn; auto. unfold less, beyond at 1. rewrite (cmp_opp pattern (fst r)). destruct (cmp pattern (fst r)); cbn; auto.
        - reflexivity. }
      inversion W as [cd0 o1 key W1 N1|o1 key cd0 out0 W1 W2]; subst.
      + destruct W1 as (-> & _). congruence.
      + destruct W1 as (_ & E1 & _ & M). cbn in E1. specialize (M 0). cbn [Nat.eqb o_recs] in M. rewrite G in M.
        apply (up_loop cap (filter (beyond true incl pattern) L) A o1 matched cd out); rewrite <- ?EL; auto.
        unfold at_head. destruct (filter (beyond true incl pattern) L) as [|[k v] B] eqn:EB; cbn in M; rewrite M; auto.
        cbn. rewrite EL in Hs |- *. apply (ge_mid cmp cmp_opp _ _ _ _ Hs).
    - destruct (downward_split _ _ (beyond_downward incl pattern L Hs)) as (B & EL & Ef).
      assert (G : at_key (if incl then o_le cmp pattern L else o_lt cmp pattern L) = at_key (hd_error (rev (filter (beyond false incl pattern) L)))).
      { rewrite <- Ef. f_equal. destruct incl; unfold o_le, o_lt; generalize (rev L); clear - cmp_opp.
        - induction l as [|r l IH]; cbn; auto. unfold less, beyond at 1. destruct (cmp pattern (fst r)); cbn; auto.
        - induction l as [|r l IH]; cbn; auto. unfold less, beyond at 1. rewrite (cmp_opp pattern (fst r)). destruct (cmp pattern (fst r)); cbn; auto. }
      inversion W as [cd0 o1 key W1 N1|o1 key cd0 out0 W1 W2]; subst.
      + destruct W1 as (-> & _). congruence.
      + destruct W1 as (_ & E1 & _ & M). cbn in E1. specialize (M 0). cbn [Nat.eqb o_recs] in M. rewrite G in M.
        apply (down_loop cap (filter (beyond false incl pattern) L) B o1 matched cd out); rewrite <- ?EL; auto.
        * unfold at_head. destruct (filter (beyond false incl pattern) L) as [|[k v] A _] eqn:EA using rev_ind; [cbn in M; rewrite M; auto|].
          rewrite rev_app_distr in *. cbn in M. rewrite M. cbn [rev app hd_error]. rewrite EL, <- app_assoc in Hs |- *. cbn [app] in *.
          apply (ge_mid cmp cmp_opp _ _ _ _ Hs).
        * intros EA. rewrite EA in M. exact M.
  Qed.
End Ordered.

(* ---- SearchDBMForwardMatch ---- *)
Lemma bcmp_le_trans a b c : bcmp a b <> Gt -> bcmp b c <> Gt -> bcmp a c <> Gt.
Proof.
  intros H1 H2 H3. apply bcmp_gt in H3.
  destruct (blt_total a b) as [H|[->|H]]; [|apply H2, bcmp_gt, H3|apply H1, bcmp_gt, H].
  apply H2, bcmp_gt. exact (blt_trans _ _ _ H3 H).
Qed.
Lemma begins_le k p : begins_with k p = true -> bcmp p k <> Gt.
Proof.
  intros H. apply begins_spec in H as [s ->]. induction p as [|c p IH]; cbn; [destruct s; discriminate|].
  now rewrite N.compare_refl.
Qed.
Lemma begins_between p k k' : bcmp p k <> Gt -> bcmp k k' = Lt -> begins_with k' p = true -> begins_with k p = true.
Proof.
  intros H1 H2 H3. apply begins_spec in H3 as [s ->]. apply begins_spec. revert k H1 H2.
  induction p as [|c p IH]; intros k H1 H2; [now exists k|].
  destruct k as [|d k]; cbn in H1, H2; [congruence|].
  destruct (N.compare_spec c d) as [->|H|H]; [|destruct (N.compare_spec d c); try lia; discriminate|congruence].
  rewrite N.compare_refl in H2. destruct (IH k H1 H2) as [s' ->]. now exists s'.
Qed.
Lemma forward_loop_spec cap pattern : forall B A C o m cd out, ascending bcmp (A ++ B ++ C) -> o_recs o = A ++ B ++ C ->
  at_head bcmp o (A ++ B ++ C) (hd_error (B ++ C)) ->
  Forall (fun r => begins_with (fst r) pattern = true) B -> (forall r, hd_error C = Some r -> begins_with (fst r) pattern = false) ->
  forward_loop bcmp pattern cap o m cd out -> cd = SUCCESS /\ out = m ++ firstn (N.to_nat cap - length m) (map fst B).
Proof.
  induction B as [|[k v] B IH]; intros A C o m cd out Hs E P HB HC W.
  - cbn [map]. rewrite firstn_nil, app_nil_r. cbn [app] in *. destruct C as [|[k v] C].
    + assert (R : forall cd o1 st, ostep bcmp bytes (KItProcess 0 get_key false) o [] cd o1 st -> cd = NOT_FOUND_ERROR).
      { intros cd0 o1 st. apply (read_end bcmp (A ++ []) o); auto. unfold at_head in P. destruct (o_pos o 0) as [k0|]; [right; exists k0; auto|now left]. }
      inversion W; subst; auto;
        match goal with H : ostep _ _ (KItProcess _ _ _) _ _ _ _ _ |- _ => apply R in H; try congruence; try discriminate H end.
    + assert (Hk : exists k0, o_pos o 0 = Some k0 /\ o_ge bcmp k0 (A ++ (k, v) :: C) = Some (k, v)).
      { unfold at_head in P. destruct (o_pos o 0) as [k0|]; [exists k0; auto|discriminate]. }
      pose proof (fun cd o1 st => read_at bcmp (fun a b => bcmp_opp b a) A k v C o cd o1 st Hs E Hk) as R. specialize (HC _ eq_refl). cbn in HC.
      inversion W; subst; auto;
        match goal with H : ostep _ _ (KItProcess _ _ _) _ _ _ _ _ |- _ => apply R in H as (? & ? & _); subst; congruence end.
  - apply Forall_cons_iff in HB as [Hk0 HB]. cbn [fst] in Hk0. cbn [app] in *.
    assert (Hk : exists k0, o_pos o 0 = Some k0 /\ o_ge bcmp k0 (A ++ (k, v) :: B ++ C) = Some (k, v)).
    { unfold at_head in P. destruct (o_pos o 0) as [k0|]; [exists k0; auto|discriminate]. }
    pose proof (fun cd o1 st => read_at bcmp (fun a b => bcmp_opp b a) A k v (B ++ C) o cd o1 st Hs E Hk) as R.
    inversion W as [o0 m0 Hc|o0 m0 o1 key Hc W1|o0 m0 o1 key cd0 Hc W1 N1 N2|o0 m0 o1 key Hc W1 W2|o0 m0 o1 key cd1 o2 key2 cd0 out0 Hc W1 Wb W2 W3]; subst.
    + split; auto. replace (N.to_nat cap - length out) with 0 by lia. cbn. now rewrite app_nil_r.
    + destruct (R _ _ _ W1) as (H & _). discriminate.
    + destruct (R _ _ _ W1) as (H & _). congruence.
    + destruct (R _ _ _ W1) as (_ & -> & _). congruence.
    + destruct (R _ _ _ W1) as (_ & -> & E1 & P1). cbn [ostep] in W2. rewrite P1 in W2. destruct W2 as (E2 & _ & _ & M).
      specialize (M 0). cbn [Nat.eqb] in M. rewrite E1, (gt_mid bcmp (fun a b => bcmp_opp b a) _ _ _ _ Hs) in M.
      assert (Ea : A ++ (k, v) :: B ++ C = (A ++ [(k, v)]) ++ B ++ C) by (rewrite <- app_assoc; reflexivity).
      rewrite Ea in Hs, E1.
      destruct (IH (A ++ [(k, v)]) C o2 (m ++ [k]) cd out Hs) as [-> ->]; [congruence| |exact HB|exact HC|exact W3|].
      { unfold at_head. destruct (B ++ C) as [|[k' v'] D]; cbn in M; rewrite M; auto. cbn [hd_error]. apply (ge_mid bcmp (fun a b => bcmp_opp b a) _ _ _ _ Hs). }
      split; auto. rewrite <- app_assoc. f_equal. rewrite app_length. cbn [length map fst].
      replace (N.to_nat cap - length m) with (S (N.to_nat cap - (length m + 1))) by lia. reflexivity.
Qed.
Lemma filter_sub {T} (f g : T -> bool) l : (forall x, g x = true -> f x = true) -> filter g (filter f l) = filter g l.
Proof.
  intros H. induction l as [|x l IH]; cbn; auto. destruct (f x) eqn:E; cbn; destruct (g x) eqn:E'; rewrite ?IH; auto.
  apply H in E'. congruence.
Qed.
Lemma search_forward_spec L pattern capacity cd out : ascending bcmp L -> (N.of_nat (length L) < 18446744073709551616)%N ->
  search_forward bcmp L pattern capacity cd out ->
  cd = SUCCESS /\ out = cut capacity (filter (fun k => begins_with k pattern) (map fst L)).
Proof.
  intros Hs Hn W.
  set (g := fun r : bytes * bytes => begins_with (fst r) pattern).
  assert (Hmap : filter (fun k => begins_with k pattern) (map fst L) = map fst (filter g L)).
  { clear. induction L as [|r L IH]; cbn; auto. unfold g at 1. destruct (begins_with (fst r) pattern); cbn; now rewrite IH. }
  rewrite Hmap.
  pose proof (beyond_upward bcmp (fun a b => bcmp_opp b a) bcmp_le_trans true pattern L Hs) as Hu.
  destruct (upward_split _ _ Hu) as (A & EL & Ef). set (f := beyond bcmp true true pattern) in *. set (U := filter f L) in *.
  assert (Hge : o_ge bcmp pattern L = hd_error U).
  { rewrite <- Ef. unfold o_ge, f. clear. induction L as [|r L IH]; cbn; auto. unfold less, beyond at 1. rewrite (bcmp_opp (fst r) pattern). destruct (bcmp pattern (fst r)); cbn; auto. }
  assert (HU : forall r, In r U -> bcmp pattern (fst r) <> Gt).
  { intros r Hr. apply filter_In in Hr as [_ Hr]. unfold f, beyond in Hr. destruct (bcmp pattern (fst r)); congruence. }
  assert (HsU : ascending bcmp U).
  { rewrite EL in Hs. clear - Hs. induction A as [|a A IH]; auto. apply IH. now inversion Hs. }
  assert (Hd : downward g U).
  { clear - HU HsU. induction HsU as [|a l Hl IH Ha]; [constructor|]. constructor; [apply IH; intros r Hr; apply HU; now right|].
    apply Forall_forall. intros b Hb Hg. unfold g in *. rewrite Forall_forall in Ha.
    apply (begins_between pattern (fst a) (fst b)); auto. apply HU. now left. }
  assert (HgU : filter g U = filter g L).
  { apply filter_sub. intros r Eg. apply begins_le in Eg. unfold f, beyond. destruct (bcmp pattern (fst r)); congruence. }
  destruct (downward_split _ _ Hd) as (C & EU & _). rewrite HgU in EU.
  assert (HC : forall r, hd_error C = Some r -> g r = false).
  { intros r Hr. destruct C as [|r' C]; [discriminate|]. injection Hr as ->. destruct (g r) eqn:Er; auto. exfalso.
    assert (Hf : filter g U = filter g L ++ filter g (r :: C)).
    { rewrite EU, filter_app. f_equal. apply filter_sub. auto. }
    rewrite HgU in Hf. cbn in Hf. rewrite Er in Hf. apply (f_equal (@length _)) in Hf. rewrite app_length in Hf. cbn in Hf. lia. }
  inversion W as [cd0 o1 key W1 N1|o1 key cd0 out0 W1 W2]; subst cd0.
  - destruct W1 as (-> & _). congruence.
  - destruct W1 as (_ & E1 & _ & M). cbn in E1. specialize (M 0). cbn [Nat.eqb] in M.
    assert (EA : L = A ++ filter g L ++ C) by (rewrite <- EU; exact EL).
    destruct (forward_loop_spec (limit capacity) pattern (filter g L) A C o1 [] cd out) as [-> ->]; rewrite <- ?EA; auto.
    + unfold at_head. rewrite M, Hge, EU. reflexivity.
    + apply Forall_forall. intros r Hr. now apply filter_In in Hr as [_ Hr].
    + split; auto. cbn [length app]. rewrite Nat.sub_0_r. apply cut_limit. rewrite map_length. pose proof (filter_len g L). lia.
Qed.
