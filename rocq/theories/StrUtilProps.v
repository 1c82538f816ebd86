(** C55: splitting, joining, replacing and trimming strings.  Source: /repo/tkrzw_str_util.{h,cc}. *)
From Coq Require Import List NArith ZArith Bool Arith Lia Ascii String.
Import ListNotations.
From Verif Require Import Bytes StrSearchModel StrSearchProofs SearchModel ComparatorModel StrUtilModel.
Local Open Scope nat_scope.

(** * Specification *)
(** The strings with [d] between them. *)
Fixpoint join (d : bytes) (l : list bytes) : bytes := match l with [] => [] | [x] => x | x :: l => x ++ d ++ join d l end.
Definition absent (d s : bytes) : Prop := forall x y, s <> x ++ d ++ y.
(** In [a ++ d] the first occurrence of [d] is the one at the end. *)
Definition leftmost (d a : bytes) : Prop := forall x y, a ++ d = x ++ d ++ y -> y = [].
(** A string cut at the occurrences of [d] from left to right. *)
Inductive is_split (d : bytes) : bytes -> list bytes -> Prop :=
| split_last s : absent d s -> is_split d s [s]
| split_cut a r l : leftmost d a -> is_split d r l -> is_split d (a ++ d ++ r) (a :: l).
(** A string cut at the characters in [ds]. *)
Inductive is_split_any (ds : bytes) : bytes -> list bytes -> Prop :=
| any_last s : (forall c, In c s -> ~ In c ds) -> is_split_any ds s [s]
| any_cut a c r l : (forall x, In x a -> ~ In x ds) -> In c ds -> is_split_any ds r l -> is_split_any ds (a ++ c :: r) (a :: l).
Definition nonempty (s : bytes) : bool := match s with [] => false | _ => true end.

Lemma split_join d s l : is_split d s l -> join d l = s.
Proof. induction 1 as [s A|a r l L I IH]; [reflexivity|]. cbn [join]. destruct l; [inversion I|]. rewrite IH. reflexivity. Qed.
Lemma same_prefix_app t p : same_prefix t p = true <-> exists r, t = p ++ r.
Proof.
  revert t. induction p as [|c p IH]; intros t; [split; [intros _; exists t; reflexivity|intros _; destruct t; reflexivity]|].
  destruct t as [|x t]; cbn [same_prefix]; [split; [discriminate|intros (r & H); discriminate]|]. rewrite andb_true_iff, N.eqb_eq, IH. split.
  - intros [-> (r & ->)]. exists r. reflexivity.
  - intros (r & H). injection H as -> ->. eauto.
Qed.
Lemma skipn_len {A} (x y : list A) : skipn (length x) (x ++ y) = y.
Proof. rewrite skipn_app, Nat.sub_diag, skipn_all. reflexivity. Qed.
Lemma firstn_len {A} (x y : list A) : firstn (length x) (x ++ y) = x.
Proof. rewrite firstn_app, Nat.sub_diag, firstn_all. cbn. apply app_nil_r. Qed.
Lemma skipn_add {A} i j (s : list A) : skipn (i + j) s = skipn j (skipn i s).
Proof. revert s. induction i; intros s; [reflexivity|]. destruct s; cbn; [destruct j; reflexivity|apply IHi]. Qed.

(** The cut is the only one. *)
Lemma absent_not_cut d s a r : absent d s -> s <> a ++ d ++ r. Proof. intros H. apply H. Qed.
Lemma leftmost_len d a a' r r' : d <> [] -> leftmost d a -> leftmost d a' -> a ++ d ++ r = a' ++ d ++ r' -> length a = length a'.
Proof.
  intros ND.
  assert (H : forall a a' r r', leftmost d a' -> a ++ d ++ r = a' ++ d ++ r' -> length a < length a' -> False).
  { clear a a' r r'. intros a a' r r' L E LT.
    assert (X : exists y, a' ++ d = a ++ d ++ y /\ y <> []).
    { exists (skipn (length (a ++ d)) (a' ++ d)). rewrite app_assoc. split.
      - rewrite <- (firstn_skipn (length (a ++ d)) (a' ++ d)) at 1. f_equal.
        assert (Y : firstn (length (a ++ d)) ((a' ++ d) ++ r') = a ++ d) by (rewrite <- app_assoc, <- E, app_assoc; apply firstn_len).
        rewrite firstn_app in Y. replace (length (a ++ d) - length (a' ++ d)) with 0 in Y by (rewrite !app_length; lia). rewrite firstn_O, app_nil_r in Y. exact Y.
      - intros Y. apply (f_equal (@length N)) in Y. rewrite skipn_length, !app_length in Y. cbn in Y. lia. }
    destruct X as (y & X & N). apply N. apply (L a y X). }
  intros L L' E. destruct (Nat.lt_trichotomy (length a) (length a')) as [X|[X|X]]; [|exact X|].
  - destruct (H a a' r r' L' E X).
  - symmetry in E. destruct (H a' a r' r L E X).
Qed.
Lemma split_unique d s l1 l2 : d <> [] -> is_split d s l1 -> is_split d s l2 -> l1 = l2.
Proof.
  intros ND H. revert l2. induction H as [s A|a r l L I IH]; intros l2 H2.
  - inversion H2; subst; [reflexivity|]. destruct (A a r eq_refl).
  - inversion H2 as [s2 A2 E|a2 r2 l2' L2 I2 E]; subst; [destruct (A2 a r eq_refl)|].
    assert (X : length a2 = length a) by (eapply leftmost_len; eauto).
    assert (a2 = a) as ->. { rewrite <- (firstn_len a2 (d ++ r2)), E, X. apply firstn_len. }
    apply app_inv_head in E. apply app_inv_head in E. subst. f_equal. apply IH, I2.
Qed.

(** * StrSplit *)
Section Loop.
  Variable s : bytes.
  Variable fnd : nat -> option nat.
  Variable w : nat.
  Hypothesis w_pos : 1 <= w.
  Hypothesis fnd_ok : forall i pos, fnd i = Some pos -> i <= pos /\ pos + w <= length s.
  Variable R : bytes -> list bytes -> Prop.
  Hypothesis R_last : forall i, i < length s -> fnd i = None -> R (skipn i s) [skipn i s].
  Hypothesis R_nil : R [] [[]].
  Hypothesis R_cut : forall i pos l, i < length s -> fnd i = Some pos -> R (skipn (pos + w) s) l -> R (skipn i s) (substr s i (pos - i) :: l).
  Lemma loop_ok fuel : forall i, length s - i < fuel -> i <= length s -> exists l, R (skipn i s) l /\ forall segs,
    split_loop fuel fnd w s false i segs = segs ++ l /\ split_loop fuel fnd w s true i segs = segs ++ filter nonempty l.
  Proof.
    induction fuel as [|fu IH]; intros i F L; [lia|]. cbn [split_loop]. destruct (Nat.ltb_spec i (length s)) as [X|X].
    - destruct (fnd i) as [pos|] eqn:E.
      + destruct (fnd_ok _ _ E) as [P1 P2]. destruct (IH (pos + w) ltac:(lia) P2) as (l & HR & HL).
        exists (substr s i (pos - i) :: l). split; [apply R_cut; assumption|]. intros segs. cbn [negb orb]. split.
        * destruct (HL (segs ++ [substr s i (pos - i)])) as [-> _]. rewrite <- app_assoc. reflexivity.
        * destruct (Nat.ltb_spec i pos) as [Y|Y].
          -- destruct (HL (segs ++ [substr s i (pos - i)])) as [_ ->]. rewrite <- app_assoc. cbn [filter app].
             replace (nonempty (substr s i (pos - i))) with true; [reflexivity|]. destruct (substr s i (pos - i)) eqn:Z; [|reflexivity].
             apply (f_equal (@length N)) in Z. unfold substr in Z. rewrite firstn_length, skipn_length in Z. cbn in Z. lia.
          -- destruct (HL segs) as [_ ->]. cbn [filter]. replace (pos - i) with 0 by lia. unfold substr. rewrite firstn_O. reflexivity.
      + exists [skipn i s]. split; [apply R_last; assumption|]. intros segs. unfold split_end. cbn [negb orb]. split; [reflexivity|].
        apply Nat.ltb_lt in X. rewrite X. cbn [filter]. destruct (skipn i s) eqn:Z; [|reflexivity]. apply (f_equal (@length N)) in Z. rewrite skipn_length in Z. apply Nat.ltb_lt in X. cbn in Z. lia.
    - assert (skipn i s = []) as E by (apply skipn_all2; exact X). exists [[]]. rewrite E. split; [exact R_nil|]. intros segs. unfold split_end. cbn [negb orb filter nonempty]. rewrite E. split; [reflexivity|].
      replace (i <? length s) with false by (symmetry; apply Nat.ltb_ge; lia). rewrite app_nil_r. reflexivity.
  Qed.
End Loop.

Lemma find_loop s d skip : d <> [] -> exists l, is_split d s l /\ split_loop (S (length s)) (sv_find s d) (length d) s skip 0 [] = if skip then filter nonempty l else l.
Proof.
  intros ND. assert (LD : 1 <= length d) by (destruct d; [congruence|cbn; lia]).
  assert (MT : forall i, mt s d i <-> exists r, skipn i s = d ++ r) by (intros i; rewrite <- match_spec; apply same_prefix_app).
  assert (FD : forall i pos, sv_find s d i = Some pos -> skipn i s = substr s i (pos - i) ++ d ++ skipn (pos + length d) s /\ i <= pos /\ pos + length d <= length s /\ leftmost d (substr s i (pos - i))).
  { intros i pos E. pose proof (sv_find_spec s d i) as H. rewrite E in H. destruct H as ((H1 & H1') & H2 & H3). apply MT in H2. destruct H2 as (r & H2).
    assert (SK : skipn pos s = skipn (pos - i) (skipn i s)) by (rewrite <- skipn_add; f_equal; lia).
    assert (SP : skipn i s = substr s i (pos - i) ++ d ++ r) by (unfold substr; rewrite <- H2, SK; symmetry; apply firstn_skipn).
    assert (LE : length s - pos = length d + length r) by (rewrite <- skipn_length, H2, app_length; reflexivity).
    assert (RR : skipn (pos + length d) s = r) by (rewrite skipn_add, H2; apply skipn_len).
    split; [rewrite RR; exact SP|]. split; [exact H1|]. split; [lia|]. intros x y EQ. destruct y as [|c y]; [reflexivity|]. exfalso.
    assert (LS : length (substr s i (pos - i)) = pos - i) by (unfold substr; rewrite firstn_length, skipn_length; lia).
    assert (LX : length x < pos - i) by (apply (f_equal (@length N)) in EQ; rewrite !app_length in EQ; cbn in EQ; lia).
    apply (H3 (i + length x)); [lia|]. apply MT. rewrite skipn_add, SP, app_assoc, EQ, <- app_assoc, skipn_len, <- app_assoc. eauto. }
  destruct (loop_ok s (sv_find s d) (length d) LD) with (R := is_split d) (fuel := S (length s)) (i := 0) as (l & HR & HL); try lia.
  - intros i pos E. destruct (FD i pos E) as (_ & A & B & _). auto.
  - intros i Hi E. constructor. intros x y EQ. pose proof (sv_find_spec s d i) as H. rewrite E in H.
    assert (LE : length s - i = length x + (length d + length y)) by (rewrite <- skipn_length, EQ, !app_length; reflexivity).
    apply (H (i + length x)); [lia|]. apply MT. rewrite skipn_add, EQ, skipn_len. eauto.
  - constructor. intros x y E. destruct x; [|discriminate]. destruct d; [congruence|discriminate].
  - intros i pos l Hi E I. destruct (FD i pos E) as (A & _ & _ & L). rewrite A. constructor; assumption.
  - exists l. split; [exact HR|]. destruct skip; apply (HL []).
Qed.

(** ** C55.  StrSplit cuts at the occurrences of the delimiter, from left to right, and in no other way. *)
Theorem C55_split s d l : d <> [] -> (str_split s d false = l <-> is_split d s l).
Proof.
  intros ND. destruct (find_loop s d false ND) as (l' & A & B). assert (E : str_split s d false = l') by (destruct d; [congruence|exact B]).
  rewrite E. split; [intros <-; exact A|intros X; eapply split_unique; eassumption].
Qed.
Theorem C55_split_join s d : d <> [] -> join d (str_split s d false) = s.
Proof. intros ND. apply split_join. apply C55_split; [exact ND|reflexivity]. Qed.
Theorem C55_split_skip s d : d <> [] -> str_split s d true = filter nonempty (str_split s d false).
Proof.
  intros ND. destruct (find_loop s d true ND) as (l & A & B). destruct (find_loop s d false ND) as (l' & A' & B').
  assert (l' = l) as -> by (eapply split_unique; eassumption). destruct d; [congruence|]. unfold str_split. rewrite B, B'. reflexivity.
Qed.
Theorem C55_split_char s c skip : str_split_char s c skip = str_split s [c] skip.
Proof. reflexivity. Qed.
Theorem C55_split_empty s skip : str_split s [] skip = map (fun c => [c]) s.
Proof. reflexivity. Qed.

(** * StrSplitAny *)
Lemma find_first_of_spec s ds pos : match find_first_of s ds pos with
  | Some i => exists c, pos <= i /\ nth_error s i = Some c /\ In c ds /\ forall k x, pos <= k < i -> nth_error s k = Some x -> ~ In x ds
  | None => forall k x, pos <= k -> nth_error s k = Some x -> ~ In x ds end.
Proof.
  unfold find_first_of. set (f := fun i => match nth_error s i with Some c => existsb (N.eqb c) ds | None => false end).
  assert (IN : forall c, existsb (N.eqb c) ds = true <-> In c ds).
  { intros c. rewrite existsb_exists. split; [intros (x & A & B); apply N.eqb_eq in B; subst; exact A|intros A; exists c; split; [exact A|apply N.eqb_refl]]. }
  assert (FT : forall k x, nth_error s k = Some x -> f k = false -> ~ In x ds) by (intros k x E F Y; unfold f in F; rewrite E in F; apply IN in Y; congruence).
  assert (G : forall n p, match find f (seq p n) with
    | Some i => p <= i < p + n /\ f i = true /\ forall k, p <= k < i -> f k = false
    | None => forall k, p <= k < p + n -> f k = false end).
  { induction n as [|n IH]; intros p; cbn [seq find]; [intros; lia|]. destruct (f p) eqn:E; [split; [lia|split; [exact E|intros; lia]]|].
    specialize (IH (S p)). destruct (find f (seq (S p) n)) as [i|].
    - destruct IH as (A & B & C). split; [lia|]. split; [exact B|]. intros k Hk. destruct (Nat.eq_dec k p) as [->|]; [exact E|apply C; lia].
    - intros k Hk. destruct (Nat.eq_dec k p) as [->|]; [exact E|apply IH; lia]. }
  specialize (G (length s - pos) pos). destruct (find f _) as [i|].
  - destruct G as (A & B & C). unfold f in B. destruct (nth_error s i) as [c|] eqn:E; [|discriminate]. exists c. split; [lia|]. split; [reflexivity|]. split; [apply IN, B|].
    intros k x Hk Hx. apply (FT k x Hx). apply C, Hk.
  - intros k x Hk Hx. apply (FT k x Hx). apply G. assert (k < length s) by (apply nth_error_Some; congruence). lia.
Qed.
Lemma in_substr s i j x : In x (substr s i j) -> exists k, i <= k < i + j /\ nth_error s k = Some x.
Proof.
  unfold substr. intros H. apply In_nth_error in H. destruct H as (k & H).
  assert (k < length (firstn j (skipn i s))) as L by (apply nth_error_Some; congruence). rewrite firstn_length in L.
  exists (i + k). split; [lia|]. rewrite <- H.
  assert (X : nth_error (skipn i s) k = nth_error (firstn j (skipn i s)) k).
  { rewrite <- (firstn_skipn j (skipn i s)) at 1. apply nth_error_app1. rewrite firstn_length. lia. }
  rewrite <- X. clear. revert i. induction s as [|c s IH]; intros [|i]; cbn [skipn Nat.add]; try reflexivity; [destruct k; reflexivity|apply IH].
Qed.
Lemma skipn_nth (s : bytes) i c : nth_error s i = Some c -> skipn i s = c :: skipn (S i) s.
Proof. revert i. induction s as [|x s IH]; intros [|i] H; try discriminate; [injection H as ->; reflexivity|]. cbn [skipn]. apply IH, H. Qed.
Lemma any_unique ds s l1 l2 : is_split_any ds s l1 -> is_split_any ds s l2 -> l1 = l2.
Proof.
  intros H. revert l2. induction H as [s A|a c r l A C I IH]; intros l2 H2.
  - inversion H2; subst; [reflexivity|]. exfalso. apply (A c); [apply in_or_app; right; left; reflexivity|assumption].
  - inversion H2 as [s2 A2 E|a2 c2 r2 l2' A2 C2 I2 E]; subst; [exfalso; apply (A2 c); [apply in_or_app; right; left; reflexivity|assumption]|].
    assert (X : forall a a2 c c2 r r2, (forall x, In x a -> ~ In x ds) -> (forall x, In x a2 -> ~ In x ds) -> In c ds -> In c2 ds -> a2 ++ c2 :: r2 = a ++ c :: r -> a2 = a /\ r2 = r).
    { clear. induction a as [|x a IH]; intros a2 c c2 r r2 A A2 C C2 E; destruct a2 as [|x2 a2]; cbn in E; injection E as E1 E2; subst.
      - auto.
      - exfalso. apply (A2 c); [left; reflexivity|exact C].
      - exfalso. apply (A x); [left; reflexivity|exact C2].
      - destruct (IH a2 c c2 r r2) as [-> ->]; auto; intros y Y; [apply A|apply A2]; right; exact Y. }
    destruct (X _ _ _ _ _ _ A A2 C C2 E) as [-> ->]. f_equal. apply IH, I2.
Qed.
Lemma any_loop s ds skip : exists l, is_split_any ds s l /\ str_split_any s ds skip = if skip then filter nonempty l else l.
Proof.
  destruct (loop_ok s (find_first_of s ds) 1 (le_n 1)) with (R := is_split_any ds) (fuel := S (length s)) (i := 0) as (l & HR & HL); try lia.
  - intros i pos E. pose proof (find_first_of_spec s ds i) as H. rewrite E in H. destruct H as (c & A & B & _). split; [exact A|].
    assert (pos < length s) by (apply nth_error_Some; congruence). lia.
  - intros i Hi E. constructor. intros c Hc. pose proof (find_first_of_spec s ds i) as H. rewrite E in H.
    rewrite <- (firstn_all (skipn i s)) in Hc. apply in_substr in Hc. destruct Hc as (k & Hk & Hx). apply (H k c); [lia|exact Hx].
  - constructor. intros c [].
  - intros i pos l Hi E I. pose proof (find_first_of_spec s ds i) as H. rewrite E in H. destruct H as (c & A & B & C & D).
    assert (skipn i s = substr s i (pos - i) ++ c :: skipn (pos + 1) s) as ->.
    { rewrite <- (firstn_skipn (pos - i) (skipn i s)) at 1. unfold substr. f_equal. rewrite <- skipn_add. replace (i + (pos - i)) with pos by lia. rewrite Nat.add_1_r. apply skipn_nth, B. }
    constructor; [|exact C|exact I]. intros x Hx. apply in_substr in Hx. destruct Hx as (k & Hk & Hx). apply (D k x); [lia|exact Hx].
  - exists l. split; [exact HR|]. unfold str_split_any. destruct skip; apply (HL []).
Qed.
(** ** C55.  StrSplitAny cuts at every delimiter character. *)
Theorem C55_split_any s ds l : str_split_any s ds false = l <-> is_split_any ds s l.
Proof. destruct (any_loop s ds false) as (l' & A & ->). split; [intros <-; exact A|intros X; eapply any_unique; eassumption]. Qed.
Theorem C55_split_any_skip s ds : str_split_any s ds true = filter nonempty (str_split_any s ds false).
Proof.
  destruct (any_loop s ds true) as (l & A & ->). destruct (any_loop s ds false) as (l' & A' & ->). assert (l' = l) as -> by (eapply any_unique; eassumption). reflexivity.
Qed.

(** * StrJoin *)
Fixpoint drop_empty (l : list bytes) : list bytes := match l with [] :: l => drop_empty l | _ => l end.
Lemma join_acc d l : forall str, str <> [] ->
  fold_left (fun str elem => (match str with [] => str | _ => str ++ d end) ++ elem) l str = match l with [] => str | _ => str ++ d ++ join d l end.
Proof.
  induction l as [|x l IH]; intros str NE; [reflexivity|]. cbn [fold_left]. destruct str as [|c str]; [congruence|].
  rewrite IH by (intros E; apply (f_equal (@length N)) in E; rewrite !app_length in E; cbn in E; lia).
  destruct l; [rewrite <- app_assoc; reflexivity|]. cbn [join]. rewrite <- !app_assoc. reflexivity.
Qed.
(** ** C55.  StrJoin puts the delimiter between the elements, after leaving out the empty elements at the head. *)
Theorem C55_join l d : str_join l d = join d (drop_empty l).
Proof.
  unfold str_join. induction l as [|[|c x] l IH]; [reflexivity|exact IH|]. cbn [fold_left drop_empty app]. rewrite join_acc by discriminate. destruct l; reflexivity.
Qed.
Theorem C55_join_refuted : exists l d, l <> [] /\ d <> [] /\ Forall (absent d) l /\ str_join l d <> join d l /\ str_split (str_join l d) d false <> l.
Proof.
  exists [[]; [97%N]], [44%N]. split; [discriminate|]. split; [discriminate|]. split; [|split; vm_compute; discriminate].
  repeat constructor; intros x y E; destruct x as [|? [|? ?]]; cbn in E; discriminate.
Qed.
(** ** C55.  StrSplit gets back what StrJoin has joined, for elements without the delimiter character and the first one not empty. *)
Theorem C55_join_split l c : Forall (fun x => ~ In c x) l -> (exists x r, l = x :: r /\ x <> []) -> str_split (str_join l [c]) [c] false = l.
Proof.
  intros F (x0 & r0 & E0 & N0). apply C55_split; [discriminate|]. rewrite C55_join. assert (drop_empty l = l) as -> by (subst; destruct x0; [congruence|reflexivity]).
  assert (NE : l <> []) by (subst; discriminate). clear x0 r0 E0 N0. induction F as [|x l Hx F IH]; [congruence|]. destruct l as [|y l].
  - cbn [join]. constructor. intros a b E. apply Hx. rewrite E. apply in_or_app. right. left. reflexivity.
  - change (join [c] (x :: y :: l)) with (x ++ [c] ++ join [c] (y :: l)). constructor; [|apply IH; discriminate].
    intros a b E. destruct b as [|z b] using rev_ind; [reflexivity|]. exfalso. rewrite app_assoc, app_assoc in E. apply app_inj_tail in E. destruct E as [E _]. apply Hx. rewrite E.
    apply in_or_app. left. apply in_or_app. right. left. reflexivity.
Qed.

(** * StrSplitIntoMap *)
(** The first record with the key, each record being cut at the first occurrence of [dk]. *)
Inductive record_of (dk r : bytes) : option (bytes * bytes) -> Prop :=
| rec_cut k v : r = k ++ dk ++ v -> leftmost dk k -> record_of dk r (Some (k, v))
| rec_none : absent dk r -> record_of dk r None.
Inductive first_rec (dk : bytes) (k : bytes) : list bytes -> option bytes -> Prop :=
| fr_nil : first_rec dk k [] None
| fr_hit r rs v : record_of dk r (Some (k, v)) -> first_rec dk k (r :: rs) (Some v)
| fr_other r rs o k' v' : record_of dk r (Some (k', v')) -> k' <> k -> first_rec dk k rs o -> first_rec dk k (r :: rs) o
| fr_skip r rs o : record_of dk r None -> first_rec dk k rs o -> first_rec dk k (r :: rs) o.
Lemma record_found dk r : match sv_find r dk 0 with Some pos => record_of dk r (Some (substr r 0 pos, skipn (pos + length dk) r)) | None => record_of dk r None end.
Proof.
  assert (MT : forall i, mt r dk i <-> exists x, skipn i r = dk ++ x) by (intros i; rewrite <- match_spec; apply same_prefix_app).
  pose proof (sv_find_spec r dk 0) as H. destruct (sv_find r dk 0) as [pos|].
  - destruct H as (H1 & H2 & H3). apply MT in H2. destruct H2 as (x & H2). assert (SP : r = substr r 0 pos ++ dk ++ x) by (unfold substr; cbn [skipn]; rewrite <- H2; symmetry; apply firstn_skipn).
    constructor.
    + rewrite skipn_add, H2, skipn_len. exact SP.
    + intros a b E. destruct b as [|c b]; [reflexivity|]. exfalso.
      assert (LS : length (substr r 0 pos) = pos) by (unfold substr; cbn [skipn]; rewrite firstn_length; lia).
      assert (LX : length a < pos) by (apply (f_equal (@length N)) in E; rewrite !app_length in E; cbn in E; lia).
      apply (H3 (length a)); [lia|]. apply MT. rewrite SP, app_assoc, E, <- app_assoc, skipn_len, <- app_assoc. eauto.
  - constructor. intros a b E. apply (H (length a)); [rewrite E, app_length; lia|]. apply MT. rewrite E, skipn_len. eauto.
Qed.
Lemma beqb_true a b : beqb a b = true <-> a = b. Proof. apply beqb_eq. Qed.
Lemma assoc_app m k v k' : assoc (m ++ [(k, v)]) k' = match assoc m k' with Some x => Some x | None => if beqb k' k then Some v else None end.
Proof. induction m as [|[x y] m IH]; cbn; [reflexivity|]. destruct (beqb k' x); [reflexivity|exact IH]. Qed.
Lemma emplace_assoc m k v k' : assoc (emplace m k v) k' = match assoc m k' with Some x => Some x | None => if beqb k' k then Some v else None end.
Proof.
  unfold emplace. destruct (assoc m k) eqn:E; [|apply assoc_app]. destruct (assoc m k') eqn:E'; [reflexivity|].
  destruct (beqb k' k) eqn:Q; [|reflexivity]. apply beqb_true in Q. subst. congruence.
Qed.
(** ** C55.  StrSplitIntoMap has for each key the value of the first record of that key. *)
Theorem C55_into_map s dr dk k : first_rec dk k (str_split s dr true) (assoc (str_split_into_map s dr dk) k).
Proof.
  unfold str_split_into_map. generalize (str_split s dr true). intros rs.
  set (f := fun m r => match sv_find r dk 0 with Some pos => emplace m (substr r 0 pos) (skipn (pos + length dk) r) | None => m end).
  assert (G : forall rs m, (exists v, assoc m k = Some v /\ assoc (fold_left f rs m) k = Some v) \/ (assoc m k = None /\ first_rec dk k rs (assoc (fold_left f rs m) k))).
  { clear rs. induction rs as [|r rs IH]; intros m; cbn [fold_left].
    - destruct (assoc m k) as [v|] eqn:E; [left; eauto|right]. split; [reflexivity|constructor].
    - pose proof (record_found dk r) as RF. unfold f at 2 4. destruct (sv_find r dk 0) as [pos|].
      + set (kk := substr r 0 pos) in *. set (vv := skipn (pos + length dk) r) in *. destruct (assoc m k) as [v|] eqn:E.
        * left. exists v. split; [reflexivity|]. destruct (IH (emplace m kk vv)) as [(v' & A & B)|[A B]]; rewrite emplace_assoc, E in A; [congruence|discriminate].
        * right. split; [reflexivity|]. destruct (beqb k kk) eqn:Q.
          -- apply beqb_true in Q. subst kk. destruct (IH (emplace m (substr r 0 pos) vv)) as [(v' & A & B)|[A B]]; rewrite emplace_assoc, E in A; rewrite Q in A at 1 |- * at 1.
             ++ rewrite (proj2 (beqb_true _ _) eq_refl) in A. injection A as <-. rewrite <- Q in *. rewrite B. constructor. exact RF.
             ++ rewrite (proj2 (beqb_true _ _) eq_refl) in A. discriminate.
          -- destruct (IH (emplace m kk vv)) as [(v' & A & B)|[A B]]; rewrite emplace_assoc, E, Q in A; [discriminate|]. eapply fr_other; [exact RF| |exact B].
             intros X. symmetry in X. apply beqb_true in X. congruence.
      + destruct (IH m) as [X|[A B]]; [left; exact X|]. right. split; [exact A|]. apply fr_skip; assumption. }
  destruct (G rs []) as [(v & A & _)|[_ A]]; [discriminate|exact A].
Qed.

(** * Letters *)
Ltac cases_le := repeat match goal with |- context [(?a <=? ?b)%N] => lazymatch a with context [if _ then _ else _] => fail | _ => lazymatch b with context [if _ then _ else _] => fail | _ => destruct (N.leb_spec a b) end end; cbv beta iota delta [andb] end; try reflexivity; try lia.
(** ** C55.  The case functions change letters only, as expected of ASCII. *)
Theorem C55_case s :
  length (upper_case s) = length s /\ length (lower_case s) = length s /\
  upper_case (lower_case s) = upper_case s /\ lower_case (upper_case s) = lower_case s /\
  upper_case (upper_case s) = upper_case s /\ lower_case (lower_case s) = lower_case s /\
  (forall i c, nth_error s i = Some c -> nth_error (upper_case s) i = Some (if (97 <=? c) && (c <=? 122) then c - 32 else c)%N /\
     nth_error (lower_case s) i = Some (if (65 <=? c) && (c <=? 90) then c + 32 else c)%N).
Proof.
  unfold upper_case, lower_case. rewrite !map_length, !map_map. repeat split.
  - apply map_ext. intros c. unfold upper, SearchModel.lower. cases_le.
  - apply map_ext. intros c. unfold upper, SearchModel.lower. cases_le.
  - apply map_ext. intros c. unfold upper. cases_le.
  - apply map_ext. intros c. unfold SearchModel.lower. cases_le.
  - apply (map_nth_error upper) in H. exact H.
  - apply (map_nth_error SearchModel.lower) in H. exact H.
Qed.

(** * StrReplace *)
Lemma absent_short (d s : bytes) : length s < length d -> absent d s.
Proof. intros L x y E. apply (f_equal (@length N)) in E. rewrite !app_length in E. lia. Qed.
Lemma replace_loop_spec s before after : before <> [] -> forall fuel i result, i <= length s -> length s - i < fuel -> length before <= length s ->
  forall l, is_split before (skipn i s) l -> replace_loop fuel s before after (length s - length before + 1) i result = result ++ join after l.
Proof.
  intros ND. assert (LB : 0 < length before) by (destruct before; [congruence|cbn; lia]).
  assert (G : forall fuel i result a l, i <= length s -> length s - i < fuel -> length before <= length s ->
     is_split before (skipn i s) (a :: l) ->
     replace_loop fuel s before after (length s - length before + 1) i result = result ++ join after (a :: l)).
  { induction fuel as [|fuel IH]; intros i result a l LI LF LL H; [lia|]. cbn [replace_loop].
    destruct (Nat.ltb_spec i (length s - length before + 1)) as [LT|GE].
    - destruct (same_prefix (skipn i s) before) eqn:SP.
      + apply same_prefix_app in SP. destruct SP as (r & SP).
        assert (A : a = [] /\ is_split before r l).
        { inversion H as [s' A Q1 Q2|a' r' l' L I Q1 Q2]; subst; [destruct (A [] r SP)|].
          assert (X : a = []).
          { assert (LN : length a = length (@nil N)); [|destruct a; [reflexivity|discriminate]].
            apply (leftmost_len before a [] r' r); [exact ND|exact L| |].
            - intros x y E. cbn in E. apply (f_equal (@length N)) in E as E'. rewrite !app_length in E'. destruct x; [|cbn in E'; lia].
              cbn in E'. destruct y; [reflexivity|cbn in E'; lia].
            - cbn. rewrite Q1. exact SP. }
          subst a. split; [reflexivity|]. cbn in Q1. rewrite SP in Q1. apply app_inv_head in Q1. subst. exact I. }
        destruct A as [-> I]. destruct l as [|b l]; [inversion I|].
        assert (LR : length (skipn i s) = length before + length r) by (rewrite SP, app_length; reflexivity). rewrite skipn_length in LR.
        rewrite (IH (i + length before) (result ++ after) b l); [|lia|lia|lia|].
        * rewrite <- app_assoc. reflexivity.
        * rewrite skipn_add, SP, skipn_len. exact I.
      + destruct (skipn i s) as [|c t] eqn:SK; [apply (f_equal (@length N)) in SK; rewrite skipn_length in SK; cbn in SK; lia|].
        assert (SK1 : skipn (i + 1) s = t) by (rewrite skipn_add, SK; reflexivity).
        assert (LT1 : length s - i = S (length t)) by (rewrite <- skipn_length, SK; reflexivity).
        assert (A : exists a', a = c :: a' /\ is_split before t (a' :: l)).
        { clear SK. inversion H as [s' A Q1 Q2|a' r' l' L I Q1 Q2]; [subst a l s'|subst a' l'].
          - exists t. split; [reflexivity|]. constructor. intros x y E. apply (A (c :: x) y). rewrite E. reflexivity.
          - destruct a as [|c' a].
            + cbn in Q1. assert (same_prefix (c :: t) before = true) by (apply same_prefix_app; exists r'; rewrite <- Q1; reflexivity). congruence.
            + cbn in Q1. injection Q1 as -> Q1. exists a. split; [reflexivity|]. rewrite <- Q1. constructor; [|exact I].
              intros x y E. apply (L (c :: x) y). cbn. rewrite E. reflexivity. }
        destruct A as (a' & -> & I). unfold substr. rewrite SK. cbn [firstn].
        rewrite (IH (i + 1) (result ++ [c]) a' l); [|lia|lia|lia|rewrite SK1; exact I].
        rewrite <- app_assoc. destruct l; reflexivity.
    - inversion H as [s' A Q1 Q2|a' r' l' L I Q1 Q2]; subst; [reflexivity|]. exfalso.
      apply (f_equal (@length N)) in Q1. rewrite !app_length, skipn_length in Q1. lia. }
  intros fuel i result LI LF LL l H. destruct l as [|a l]; [inversion H|]. apply G; assumption.
Qed.
(** ** C55.  StrReplace puts the new string for every occurrence found from left to right, and changes nothing else. *)
Theorem C55_replace s before after l : before <> [] -> is_split before s l -> str_replace s before after = join after l.
Proof.
  intros ND H. unfold str_replace. destruct (Nat.ltb_spec (length s) (length before)) as [LT|GE]; cbn [orb].
  - assert (E : l = [s]) by (apply (split_unique before s); [exact ND|exact H|constructor; apply absent_short, LT]). subst l. reflexivity.
  - destruct (Nat.eqb_spec (length before) 0) as [Z|NZ]; [destruct before; [congruence|discriminate]|].
    rewrite (replace_loop_spec s before after ND (S (length s)) 0 []) with (l := l); [reflexivity|lia|lia|lia|exact H].
Qed.
Theorem C55_replace_none s after : str_replace s [] after = s.
Proof. unfold str_replace. cbn [length Nat.eqb]. rewrite orb_true_r. reflexivity. Qed.

(** * StrReplaceCharacters *)
(** What becomes of a character. *)
Fixpoint translate (before after : bytes) (c : N) : bytes :=
  match before with
  | [] => [c]
  | b :: before => if (c =? b)%N then firstn 1 after else translate before (tl after) c
  end.
Lemma translate_index before : forall after c, translate before after c = match index_of c before with None => [c] | Some m => match nth_error after m with Some d => [d] | None => [] end end.
Proof.
  induction before as [|b before IH]; intros after c; cbn; [reflexivity|]. destruct (c =? b)%N; cbn; [destruct after; reflexivity|].
  rewrite IH. destruct (index_of c before); cbn; [|reflexivity]. destruct after; cbn; [destruct n; reflexivity|reflexivity].
Qed.
(** ** C55.  StrReplaceCharacters translates each character, dropping those without a counterpart, and stays in the string. *)
Theorem C55_replace_chars s before after : str_replace_characters s before after = Some (flat_map (translate before after) s).
Proof.
  assert (G : forall u n done gap, n = length u ->
     rep_chars_loop n (done ++ gap ++ u) before after (length done + length gap) (length done) =
     Some (match rep_chars_loop n (done ++ gap ++ u) before after (length done + length gap) (length done) with Some x => x | None => ([], 0) end) /\
     match rep_chars_loop n (done ++ gap ++ u) before after (length done + length gap) (length done) with
     | Some (s', out) => firstn out s' = done ++ flat_map (translate before after) u | None => False end).
  { induction u as [|c u IH]; intros n done gap ->; cbn [length rep_chars_loop].
    - split; [reflexivity|]. rewrite firstn_len. cbn. symmetry. apply app_nil_r.
    - assert (NE : nth_error (done ++ gap ++ c :: u) (length done + length gap) = Some c).
      { rewrite app_assoc, nth_error_app2 by (rewrite app_length; lia). rewrite app_length, Nat.sub_diag. reflexivity. }
      rewrite NE. cbn [flat_map]. rewrite translate_index.
      assert (SA : forall d, exists gap', set_at (done ++ gap ++ c :: u) (length done) d = Some ((done ++ [d]) ++ gap' ++ u) /\ length gap' = length gap).
      { intros d. unfold set_at. destruct (Nat.ltb_spec (length done) (length (done ++ gap ++ c :: u))) as [_|X]; [|rewrite !app_length in X; cbn in X; lia].
        exists (tl (gap ++ [c])). rewrite firstn_len. replace (S (length done)) with (length done + 1) by lia. rewrite skipn_add, skipn_len.
        rewrite <- !app_assoc. cbn [app]. split; [|destruct gap; cbn; [reflexivity|rewrite app_length; cbn; lia]]. do 3 f_equal. destruct gap; cbn; [reflexivity|]. rewrite <- app_assoc. reflexivity. }
      assert (K : forall d, match (match set_at (done ++ gap ++ c :: u) (length done) d with Some s' => rep_chars_loop (length u) s' before after (S (length done + length gap)) (S (length done)) | None => None end) with
                            | Some (s', out) => firstn out s' = done ++ [d] ++ flat_map (translate before after) u | None => False end).
      { intros d. destruct (SA d) as (gap' & -> & LG). destruct (IH (length u) (done ++ [d]) gap' eq_refl) as [_ H].
        replace (length (done ++ [d]) + length gap') with (S (length done + length gap)) in H by (rewrite app_length; cbn; lia).
        replace (length (done ++ [d])) with (S (length done)) in H by (rewrite app_length; cbn; lia).
        destruct rep_chars_loop as [[s' out]|]; [|exact H]. rewrite H, <- app_assoc. reflexivity. }
      destruct (index_of c before) as [m|]; [destruct (nth_error after m) as [d|]|].
      + specialize (K d). destruct (set_at _ _ d); [|destruct K]. destruct rep_chars_loop as [[s' out]|]; [|destruct K]. split; [reflexivity|exact K].
      + destruct (IH (length u) done (gap ++ [c]) eq_refl) as [_ H]. rewrite <- app_assoc in H. cbn [app] in H.
        replace (length done + length (gap ++ [c])) with (S (length done + length gap)) in H by (rewrite app_length; cbn; lia).
        destruct rep_chars_loop as [[s' out]|]; [|destruct H]. split; [reflexivity|exact H].
      + specialize (K c). destruct (set_at _ _ c); [|destruct K]. destruct rep_chars_loop as [[s' out]|]; [|destruct K]. split; [reflexivity|exact K]. }
  destruct (G s (length s) [] [] eq_refl) as [_ H]. cbn in H. unfold str_replace_characters.
  destruct rep_chars_loop as [[s' out]|]; [|destruct H]. rewrite H. reflexivity.
Qed.

(** * Spaces *)
Definition spaces (s : bytes) : Prop := forall c, In c s -> (c <= 32)%N.
(** Empty, or with a character other than a space at both ends. *)
Definition trimmed (s : bytes) : Prop := s = [] \/ exists a b, (exists t, s = a :: t) /\ (exists t, s = t ++ [b]) /\ (32 < a)%N /\ (32 < b)%N.
Lemma space_true c : space c = true <-> (c <= 32)%N. Proof. apply N.leb_le. Qed.
Lemma space_false c : space c = false <-> (32 < c)%N. Proof. apply N.leb_gt. Qed.
(** ** C55.  StrStripSpace removes the spaces and controls at the ends. *)
Theorem C55_strip s : exists l t, s = l ++ str_strip_space s ++ t /\ spaces l /\ spaces t /\ trimmed (str_strip_space s).
Proof.
  set (f := fun st c => let '(converted, content_size) := st in
                           if space c then match converted with [] => st | _ => (converted ++ [c], content_size) end
                           else (converted ++ [c], length (converted ++ [c]))).
  assert (G : forall u r t, trimmed r -> spaces t -> (r = [] -> t = []) -> exists l r' t', fold_left f u (r ++ t, length r) = (r' ++ t', length r') /\
    r ++ t ++ u = l ++ r' ++ t' /\ spaces l /\ spaces t' /\ trimmed r').
  { induction u as [|c u IH]; intros r t TR ST E; cbn [fold_left].
    - exists [], r, t. rewrite app_nil_r. repeat split; try assumption. intros x [].
    - unfold f at 2. destruct (space c) eqn:SC.
      + destruct (r ++ t) as [|x y] eqn:RT.
        * destruct r; [|discriminate]. destruct t; [|discriminate]. destruct (IH [] [] TR ST E) as (l & r' & t' & A & B & C & D).
          exists (c :: l), r', t'. split; [exact A|]. split; [cbn in *; congruence|]. split; [|exact D]. intros z [<-|Z]; [apply space_true, SC|apply C, Z].
        * rewrite <- RT, <- app_assoc. destruct (IH r (t ++ [c]) TR) as (l & r' & t' & A & B & D).
          -- intros z Z. apply in_app_or in Z. destruct Z as [Z|[<-|[]]]; [apply ST, Z|apply space_true, SC].
          -- intros ->. rewrite (E eq_refl) in RT. discriminate.
          -- exists l, r', t'. split; [exact A|]. split; [|exact D]. rewrite <- B, <- app_assoc. reflexivity.
      + destruct (IH ((r ++ t) ++ [c]) []) as (l & r' & t' & A & B & D).
        * right. apply space_false in SC. destruct TR as [->|(a & b & (x & X) & _ & NA & _)].
          -- rewrite (E eq_refl). exists c, c. cbn. repeat split; try assumption; [exists []; reflexivity|exists []; reflexivity].
          -- exists a, c. repeat split; try assumption; [|exists (r ++ t); reflexivity]. rewrite X. cbn. eauto.
        * intros z [].
        * intros X. destruct (r ++ t); discriminate.
        * rewrite app_nil_r in A. exists l, r', t'. split; [exact A|]. split; [|exact D]. rewrite <- B, <- !app_assoc. reflexivity. }
  destruct (G s [] []) as (l & r & t & A & B & C & D & E); [left; reflexivity|intros z []|reflexivity|].
  exists l, t. cbn [app length] in A. unfold str_strip_space. fold f. rewrite A, firstn_len. auto.
Qed.
(** So it is the only such part of the string. *)
Lemma strip_unique l r t l' r' t' : l ++ r ++ t = l' ++ r' ++ t' -> spaces l -> spaces t -> spaces l' -> spaces t' -> trimmed r -> trimmed r' -> r = r'.
Proof.
  assert (Z : forall r, trimmed r -> spaces r -> r = []).
  { intros x [->|(a & b & (u & ->) & _ & H & _)] S; [reflexivity|]. specialize (S a (or_introl eq_refl)). lia. }
  assert (SA : forall a b, spaces a -> spaces b -> spaces (a ++ b)) by (intros a b A B c I; apply in_app_or in I; destruct I; auto).
  assert (FRONT : forall l a x l' a' x', l ++ a :: x = l' ++ a' :: x' -> spaces l -> spaces l' -> (32 < a)%N -> (32 < a')%N -> l = l').
  { clear. induction l as [|c l IH]; intros a x l' a' x' E S S' A A'; destruct l' as [|c' l']; cbn in E; try reflexivity; injection E as E1 E2.
    - specialize (S' c' (or_introl eq_refl)). lia.
    - specialize (S c (or_introl eq_refl)). lia.
    - f_equal; [exact E1|]. apply (IH a x l' a' x'); try assumption; [intros z I; apply S; right; exact I|intros z I; apply S'; right; exact I]. }
  intros E Sl St Sl' St' T T'.
  destruct T as [->|(a & b & (u & U) & (v & V) & Ha & Hb)].
  - symmetry. apply Z; [exact T'|]. intros c I. cbn in E. apply (SA l t Sl St). rewrite E. rewrite !in_app_iff. auto.
  - destruct T' as [->|(a' & b' & (u' & U') & (v' & V') & Ha' & Hb')].
    + exfalso. assert (X : In a (l ++ r ++ t)) by (rewrite U, !in_app_iff; right; left; left; reflexivity). rewrite E in X. cbn in X. apply (SA l' t' Sl' St') in X. lia.
    + assert (EL : l = l') by (apply (FRONT l a (u ++ t) l' a' (u' ++ t')); try assumption; rewrite U, U' in E; exact E).
      subst l'. apply app_inv_head in E. apply (f_equal (@rev N)) in E. rewrite !rev_app_distr in E.
      assert (ET : rev t = rev t').
      { apply (FRONT (rev t) b (rev v) (rev t') b' (rev v')); try assumption; try (intros c I; apply in_rev in I; auto). rewrite V, V', !rev_app_distr in E. exact E. }
      rewrite ET in E. apply app_inv_head in E. rewrite <- (rev_involutive r), E. apply rev_involutive.
Qed.
(** ** C55.  That determines the result; a stripped string stays as it is. *)
Theorem C55_strip_only s l r t : s = l ++ r ++ t -> spaces l -> spaces t -> trimmed r -> str_strip_space s = r.
Proof. intros E Sl St T. destruct (C55_strip s) as (l' & t' & E' & Sl' & St' & T'). apply (strip_unique l' _ t' l r t); try assumption. congruence. Qed.
Theorem C55_strip_idem s : str_strip_space (str_strip_space s) = str_strip_space s.
Proof. destruct (C55_strip s) as (l & t & _ & _ & _ & T). apply (C55_strip_only _ [] _ []); [rewrite app_nil_r; reflexivity|intros c []|intros c []|exact T]. Qed.

(** ** C55.  StrStripLine removes the line ends at the end and reads inside the string. *)
Theorem C55_strip_line s : exists r t, str_strip_line s = Some r /\ s = r ++ t /\ (forall c, In c t -> c = 13%N \/ c = 10%N) /\
  (forall r' c, r = r' ++ [c] -> c <> 13%N /\ c <> 10%N).
Proof.
  assert (G : forall n, n <= length s -> exists m, strip_line_size s n = Some m /\ m <= n /\ (forall i c, m <= i < n -> nth_error s i = Some c -> c = 13%N \/ c = 10%N) /\
     (forall i c, m = S i -> nth_error s i = Some c -> c <> 13%N /\ c <> 10%N)).
  { induction n as [|n IH]; intros L; cbn [strip_line_size].
    - exists 0. repeat split; try lia; intros; lia.
    - destruct (nth_error s n) as [c|] eqn:E; [|apply nth_error_None in E; lia]. destruct ((c =? 13) || (c =? 10))%N eqn:Q.
      + destruct (IH ltac:(lia)) as (m & A & B & C & D). exists m. split; [exact A|]. split; [lia|]. split; [|exact D].
        apply orb_true_iff in Q. rewrite !N.eqb_eq in Q. intros i x [I J] X. assert (i = n \/ i < n) as [->|K] by lia; [|apply (C i x); auto]. assert (x = c) as -> by congruence. exact Q.
      + exists (S n). apply orb_false_iff in Q. rewrite !N.eqb_neq in Q. split; [reflexivity|]. split; [lia|]. split; [intros; lia|]. intros i x [= <-] X. assert (x = c) as -> by congruence. exact Q. }
  destruct (G (length s) (le_n _)) as (m & A & B & C & D). exists (firstn m s), (skipn m s). unfold str_strip_line. rewrite A. split; [reflexivity|]. split; [symmetry; apply firstn_skipn|]. split.
  - intros c I. apply In_nth_error in I. destruct I as (i & I). assert (LI : i < length (skipn m s)) by (apply nth_error_Some; congruence). rewrite skipn_length in LI.
    apply (C (m + i) c); [lia|]. rewrite <- I. rewrite <- (firstn_skipn m s) at 1. rewrite nth_error_app2; rewrite firstn_length; [|lia]. f_equal. lia.
  - intros r c E. assert (LM : m = S (length r)) by (apply (f_equal (@length N)) in E; rewrite firstn_length, app_length in E; cbn in E; lia).
    apply (D (length r) c LM). rewrite <- (firstn_skipn m s), E, <- app_assoc, nth_error_app2, Nat.sub_diag by lia. reflexivity.
Qed.

(** * StrSqueezeAndStripSpace *)
(** The words of a string: its longest runs of characters other than spaces. *)
Inductive words : bytes -> list bytes -> Prop :=
| words_none s : spaces s -> words s []
| words_one l w s ws : spaces l -> w <> [] -> (forall c, In c w -> (32 < c)%N) -> (s = [] \/ exists c t, s = c :: t /\ (c <= 32)%N) -> words s ws -> words (l ++ w ++ s) (w :: ws).
(** The words with one space or control between each two. *)
Inductive squeezed : bytes -> list bytes -> Prop :=
| sq_nil : squeezed [] []
| sq_one w : squeezed w [w]
| sq_more w c s w' ws : (c <= 32)%N -> squeezed s (w' :: ws) -> squeezed (w ++ c :: s) (w :: w' :: ws).
Fixpoint squeeze_rest (s : bytes) (last : bool) : bytes * bytes :=
  (** what is kept, and the space at its end that is not *)
  match s with
  | [] => ([], [])
  | c :: s => if space c then if last then squeeze_rest s true else match squeeze_rest s true with ([], _) => ([], [c]) | (k, e) => (c :: k, e) end
              else let '(k, e) := squeeze_rest s false in (c :: k, e)
  end.
Lemma squeeze_eq s : str_squeeze s = fst (squeeze_rest s true).
Proof.
  set (f := fun st c => let '(converted, content_size, last_is_space) := st in
                           if space c then if (last_is_space : bool) then st else (converted ++ [c], content_size, true)
                           else (converted ++ [c], length (converted ++ [c]), false)).
  assert (T : forall u, match squeeze_rest u true with ([], e) => e = [] | _ => True end).
  { induction u as [|c u IH]; cbn [squeeze_rest]; [reflexivity|]. destruct (space c); [exact IH|]. destruct (squeeze_rest u false). exact I. }
  assert (G : forall u k e, (e = [] \/ exists c, e = [c]) ->
     (forall last, (last = true <-> (k = [] /\ e = []) \/ e <> []) ->
      let '(conv, cs, _) := fold_left f u (k ++ e, length k, last) in firstn cs conv = match fst (squeeze_rest u last) with [] => k | x => k ++ e ++ x end)).
  { induction u as [|c u IH]; intros k e HE last HL; cbn [fold_left squeeze_rest].
    - cbn. apply firstn_len.
    - unfold f at 2. destruct (space c) eqn:SC.
      + destruct last.
        * specialize (IH k e HE true HL). exact IH.
        * assert (EE : e = []) by (destruct e; [reflexivity|]; destruct HL as [_ HL]; discriminate HL; right; discriminate). subst e. rewrite app_nil_r.
          specialize (IH k [c] (or_intror (ex_intro _ c eq_refl)) true). 
          destruct (fold_left f u (k ++ [c], length k, true)) as [[conv cs] z]. rewrite IH by (split; [intros _; right; discriminate|reflexivity]).
          destruct (squeeze_rest u true) as [[|x y] e']; reflexivity.
      + specialize (IH ((k ++ e) ++ [c]) [] (or_introl eq_refl) false). rewrite app_nil_r in IH.
        destruct (fold_left f u ((k ++ e) ++ [c], length ((k ++ e) ++ [c]), false)) as [[conv cs] z]. rewrite IH.
        * destruct (squeeze_rest u false) as [[|x y] e']; cbn [fst app]; rewrite <- ?app_assoc; reflexivity.
        * split; [discriminate|]. intros [[X _]|X]; [destruct (k ++ e); discriminate|congruence]. }
  specialize (G s [] [] (or_introl eq_refl) true). unfold str_squeeze. fold f. cbn [app length] in G.
  destruct (fold_left f s ([], 0, true)) as [[conv cs] z]. rewrite G by (split; [left; auto|reflexivity]).
  destruct (fst (squeeze_rest s true)); reflexivity.
Qed.
(** ** C55.  StrSqueezeAndStripSpace keeps the words, with one space or control between each two. *)
Theorem C55_squeeze s ws : words s ws -> squeezed (str_squeeze s) ws.
Proof.
  intros W. rewrite squeeze_eq.
  assert (SP : forall l s, spaces l -> squeeze_rest (l ++ s) true = squeeze_rest s true).
  { induction l as [|c l IH]; intros u S; cbn [app squeeze_rest]; [reflexivity|]. rewrite (proj2 (space_true c)) by (apply S; left; reflexivity). apply IH. intros x I. apply S. right. exact I. }
  assert (WD : forall w last s, w <> [] -> (forall c, In c w -> (32 < c)%N) -> fst (squeeze_rest (w ++ s) last) = w ++ fst (squeeze_rest s false)).
  { induction w as [|c w IH]; intros last u NE H; [congruence|]. cbn [app squeeze_rest]. rewrite (proj2 (space_false c)) by (apply H; left; reflexivity).
    destruct w as [|c' w]; [cbn [app]; destruct (squeeze_rest u false); reflexivity|]. specialize (IH false u ltac:(discriminate) ltac:(intros x I; apply H; right; exact I)).
    destruct (squeeze_rest ((c' :: w) ++ u) false) as [k e]. cbn [fst] in *. rewrite IH. reflexivity. }
  induction W as [s S|l w s ws Sl NW HW HS W IH].
  - rewrite <- (app_nil_r s), SP by exact S. constructor.
  - rewrite SP, WD by assumption. destruct HS as [->|(c & t & -> & C)].
    + cbn [squeeze_rest fst]. rewrite app_nil_r. assert (ws = []) as ->; [|constructor].
      inversion W as [s0 S0 Q1 Q2|l0 w0 s0 ws0 Sl0 NW0 HW0 HS0 W0 Q1 Q2]; [reflexivity|]. destruct l0; [|discriminate]. destruct w0; [congruence|discriminate].
    + cbn [squeeze_rest] in *. rewrite (proj2 (space_true c) C) in *. destruct (squeeze_rest t true) as [[|x y] e]; cbn [fst] in *.
      * rewrite app_nil_r. inversion IH as [Q1 Q2|w0 Q1 Q2|w0 c0 s0 w' ws0 C0 H0 Q1 Q2]; [constructor| |destruct w0; discriminate]. exfalso.
        subst. inversion W; subst. congruence.
      * destruct ws as [|w' ws]; [inversion IH|]. constructor; assumption.
Qed.
(** Every string has words. *)
Theorem C55_words s : exists ws, words s ws.
Proof.
  assert (G : forall n s, length s <= n -> exists ws, words s ws).
  { clear s. assert (SPAN : forall (p : N -> bool) s, exists l r, s = l ++ r /\ (forall c, In c l -> p c = true) /\ (r = [] \/ exists c t, r = c :: t /\ p c = false)).
    { intros p. induction s as [|c s (l & r & -> & A & B)]; [exists [], []; repeat split; [intros c []|left; reflexivity]|].
      destruct (p c) eqn:E; [exists (c :: l), r; repeat split; [intros x [<-|X]; auto|exact B]|]. exists [], (c :: l ++ r). repeat split; [intros x []|right; eauto]. }
    induction n as [|n IH]; intros s L.
    - destruct s; [|cbn in L; lia]. exists []. constructor. intros c [].
    - destruct (SPAN space s) as (l & r & -> & A & [->|(c & t & -> & C)]).
      + exists []. constructor. intros c I. rewrite app_nil_r in I. apply space_true, A, I.
      + destruct (SPAN (fun c => negb (space c)) (c :: t)) as (w & u & E & A' & B).
        assert (NW : w <> []). { intros ->. cbn in E. subst u. destruct B as [B|(c' & t' & B & C')]; [discriminate|]. injection B as <- <-. rewrite C in C'. discriminate. }
        destruct (IH u) as (ws & W).
        { rewrite E, !app_length in L. destruct w; [congruence|cbn in L; lia]. }
        exists (w :: ws). rewrite E. constructor; try assumption.
        * intros x I. apply space_true, A, I.
        * intros x I. apply space_false. apply A' in I. destruct (space x); [discriminate|reflexivity].
        * destruct B as [B|(c' & t' & B & C')]; [left; exact B|right]. exists c', t'. split; [exact B|]. apply space_true. destruct (space c'); [reflexivity|discriminate]. }
  apply (G (length s)). apply le_n.
Qed.

(** * StrTrimForTSV *)
(** ** C55.  StrTrimForTSV leaves no control character or DEL except the tabs it is told to keep, and changes nothing else. *)
Theorem C55_tsv s keep : length (str_trim_tsv s keep) = length s /\
  forall i c, nth_error s i = Some c -> exists c', nth_error (str_trim_tsv s keep) i = Some c' /\
    (c' = c \/ c' = 32%N) /\ (32 <= c' /\ c' <> 127 \/ c' = 9 /\ keep = true)%N /\ ((32 <= c /\ c <> 127 \/ c = 9 /\ keep = true) -> c' = c)%N.
Proof.
  unfold str_trim_tsv. rewrite map_length. split; [reflexivity|]. intros i c H. eexists. split; [apply map_nth_error; exact H|].
  unfold space. destruct (N.leb_spec c 32), (N.eqb_spec c 127), (N.eqb_spec c 9), keep; cbn; repeat split; try (left; reflexivity); try (right; reflexivity); try lia; try (intros; lia).
Qed.

(** * Numbers *)
(** Octal digits and their value. *)
Definition oct_digits (ds : bytes) : Prop := forall c, In c ds -> (48 <= c <= 55)%N.
Definition oct_value (ds : bytes) : N := fold_left (fun n c => n * 8 + (c - 48))%N ds 0%N.
Lemma oct_loop_spec ds rest : oct_digits ds -> (rest = [] \/ exists c t, rest = c :: t /\ ~ (48 <= c <= 55)%N) -> forall num has,
  oct_loop (ds ++ rest) num has = (match ds with [] => num | _ => (fold_left (fun n c => n * 8 + (c - 48)) ds num mod 2 ^ 64)%N end, match ds with [] => has | _ => true end).
Proof.
  intros D R. 
  assert (M : forall ds a b, (a mod 2 ^ 64 = b mod 2 ^ 64)%N -> (fold_left (fun n c => n * 8 + (c - 48)) ds a mod 2 ^ 64 = fold_left (fun n c => n * 8 + (c - 48)) ds b mod 2 ^ 64)%N).
  { clear. induction ds as [|c ds IH]; intros a b E; [exact E|]. cbn [fold_left]. apply IH.
    rewrite <- (N.add_mod_idemp_l (a * 8)), <- (N.add_mod_idemp_l (b * 8)), <- (N.mul_mod_idemp_l a), <- (N.mul_mod_idemp_l b), E by discriminate. reflexivity. }
  induction ds as [|c ds IH]; intros num has; cbn [app].
  - destruct R as [->|(c & t & -> & C)]; [reflexivity|]. cbn [oct_loop]. destruct (N.leb_spec 48 c), (N.leb_spec c 55); cbn [andb]; try reflexivity. lia.
  - cbn [oct_loop]. pose proof (D c (or_introl eq_refl)) as C. rewrite (proj2 (N.leb_le 48 c)), (proj2 (N.leb_le c 55)) by lia. cbn [andb].
    rewrite IH by (intros x I; apply D; right; exact I). cbn [fold_left]. destruct ds as [|c' ds]; [reflexivity|]. f_equal. apply M. apply N.mod_mod. discriminate.
Qed.
Lemma skip_space_app l r : spaces l -> (r = [] \/ exists c t, r = c :: t /\ (32 < c)%N) -> skip_space (l ++ r) = r.
Proof.
  intros S R. induction l as [|c l IH]; cbn [app].
  - destruct R as [->|(c & t & -> & C)]; [reflexivity|]. cbn. destruct (N.leb_spec c 32); [lia|reflexivity].
  - cbn. assert (H : (c <= 32)%N) by (apply S; left; reflexivity). apply N.leb_le in H. rewrite H. apply IH. intros x I. apply S. right. exact I.
Qed.
(** ** C55.  StrToIntOct reads the octal digits after any spaces, modulo 2^64; without digits it gives the default. *)
Theorem C55_oct l ds rest defval : spaces l -> oct_digits ds ->
  (rest = [] \/ exists c t, rest = c :: t /\ (32 < c)%N /\ ~ (48 <= c <= 55)%N) ->
  str_to_int_oct (l ++ ds ++ rest) defval = match ds with [] => defval | _ => (oct_value ds mod 2 ^ 64)%N end.
Proof.
  intros Sl D R. unfold str_to_int_oct. rewrite skip_space_app; [|exact Sl|].
  - rewrite oct_loop_spec; [|exact D|destruct R as [R|(c & t & R & _ & C)]; [left; exact R|right; eauto]]. destruct ds; reflexivity.
  - destruct ds as [|c ds]; [destruct R as [R|(c & t & R & C & _)]; [left; exact R|right; exists c, t; auto]|]. right. exists c, (ds ++ rest). split; [reflexivity|]. specialize (D c (or_introl eq_refl)). lia.
Qed.
(** ** C55.  StrToBool knows these words, in any case and with spaces around. *)
Definition txt (s : string) : bytes := map N_of_ascii (list_ascii_of_string s).
Theorem C55_bool l r t defval : spaces l -> spaces t -> trimmed r ->
  let yes := map txt ["true"; "t"; "yes"; "y"; "1"]%string in
  let no := map txt ["false"; "f"; "no"; "n"; "0"]%string in
  (In (lower_case r) yes -> str_to_bool (l ++ r ++ t) defval = true) /\
  (In (lower_case r) no -> str_to_bool (l ++ r ++ t) defval = false) /\
  (~ In (lower_case r) yes -> ~ In (lower_case r) no -> str_to_bool (l ++ r ++ t) defval = defval).
Proof.
  intros Sl St T yes no. unfold str_to_bool. rewrite (C55_strip_only _ l r t eq_refl Sl St T).
  change trues with yes. change falses with no. set (w := lower_case r).
  assert (EX : forall ls, existsb (beqb w) ls = true <-> In w ls).
  { intros ls. rewrite existsb_exists. split; [intros (x & X & Q); apply beqb_true in Q; subst; exact X|intros X; exists w; split; [exact X|apply beqb_refl]]. }
  assert (DJ : In w no -> ~ In w yes) by (intros H1 H2; repeat (destruct H1 as [<-|H1]; [repeat (destruct H2 as [H2|H2]; [discriminate H2|]); exact H2|]); exact H1).
  destruct (existsb (beqb w) yes) eqn:E1, (existsb (beqb w) no) eqn:E2; rewrite ?EX in *;
    (assert (N1 : existsb (beqb w) yes = true <-> In w yes) by apply EX); (assert (N2 : existsb (beqb w) no = true <-> In w no) by apply EX); rewrite ?E1, ?E2 in *; intuition congruence.
Qed.

(** * Concrete cases *)
Example split_case : is_split (txt "::") (txt "a::b::::c") (map txt ["a"; "b"; ""; "c"]%string) /\ str_split (txt "a::b::::c") (txt "::") false = map txt ["a"; "b"; ""; "c"]%string /\
  str_split (txt "a::b::::c") (txt "::") true = map txt ["a"; "b"; "c"]%string.
Proof. repeat split; [|vm_compute; reflexivity..]. apply C55_split; [discriminate|vm_compute; reflexivity]. Qed.
(** Occurrences that overlap: cut at the leftmost. *)
Example split_overlap : str_split (txt "aaab") (txt "aa") false = map txt [""; "ab"]%string. Proof. reflexivity. Qed.
Example join_case : str_join (map txt ["x"; ""; "yz"]%string) (txt ", ") = txt "x, , yz" /\ str_join (map txt [""; "x"]%string) (txt ", ") = txt "x". Proof. split; reflexivity. Qed.
Example map_case : str_split_into_map (txt "a=1,b=2=3,a=9,,zz") (txt ",") (txt "=") = [(txt "a", txt "1"); (txt "b", txt "2=3")]. Proof. reflexivity. Qed.
Example replace_case : str_replace (txt "one two one") (txt "one") (txt "1") = txt "1 two 1" /\ str_replace_characters (txt "abcabd") (txt "abc") (txt "xy") = Some (txt "xyxyd"). Proof. split; vm_compute; reflexivity. Qed.
Example strip_case : str_strip_space (txt "  a b  ") = txt "a b" /\ str_squeeze (txt "  a   b  c ") = txt "a b c" /\ str_strip_line (txt "ab" ++ [13; 10]%N) = Some (txt "ab") /\
  str_trim_tsv (txt "a" ++ [9; 7] ++ txt "b")%N true = (txt "a" ++ [9; 32] ++ txt "b")%N. Proof. repeat split; vm_compute; reflexivity. Qed.
Example words_case : words (txt " ab  c") (map txt ["ab"; "c"]%string).
Proof.
  apply (words_one (txt " ") (txt "ab") (txt "  c")); [intros c [<-|[]]; vm_compute; discriminate|discriminate|intros c [<-|[<-|[]]]; vm_compute; reflexivity|right; exists 32%N, (txt " c"); split; [reflexivity|vm_compute; discriminate]|].
  apply (words_one (txt "  ") (txt "c") []); [intros c [<-|[<-|[]]]; vm_compute; discriminate|discriminate|intros c [<-|[]]; vm_compute; reflexivity|left; reflexivity|constructor; intros c []].
Qed.
Example number_case : str_to_int_oct (txt " 0755x") 1 = 493%N /\ str_to_int_oct (txt " 9") 1 = 1%N /\ str_to_bool (txt " YES ") false = true /\ str_to_bool (txt "maybe") true = true. Proof. repeat split; vm_compute; reflexivity. Qed.

Print Assumptions C55_split.
Print Assumptions C55_split_join.
Print Assumptions C55_split_skip.
Print Assumptions C55_split_char.
Print Assumptions C55_split_empty.
Print Assumptions C55_split_any.
Print Assumptions C55_split_any_skip.
Print Assumptions C55_join.
Print Assumptions C55_join_refuted.
Print Assumptions C55_join_split.
Print Assumptions C55_into_map.
Print Assumptions C55_case.
Print Assumptions C55_replace.
Print Assumptions C55_replace_none.
Print Assumptions C55_replace_chars.
Print Assumptions C55_strip.
Print Assumptions C55_strip_only.
Print Assumptions C55_strip_idem.
Print Assumptions C55_strip_line.
Print Assumptions C55_squeeze.
Print Assumptions C55_words.
Print Assumptions C55_tsv.
Print Assumptions C55_oct.
Print Assumptions C55_bool.
