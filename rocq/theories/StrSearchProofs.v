From Verif Require Import Bytes StrSearchModel.
Local Open Scope nat_scope.

(** The pattern is at position i of the text. *)
Definition mt (t p : bytes) (i : nat) : Prop :=
  forall j c, nth_error p j = Some c -> nth_error t (i + j) = Some c.

Lemma same_prefix_spec t p : same_prefix t p = true <-> mt t p 0.
Proof.
  unfold mt. cbn [Nat.add]. revert t; induction p as [|c p IH]; intros t; cbn [same_prefix].
  - split; [intros _ [|j] d H; discriminate|intros _; destruct t; reflexivity].
  - destruct t as [|d t].
    + split; [cbn; discriminate|]. intros H. specialize (H 0 c eq_refl). discriminate.
    + cbn [same_prefix]. rewrite andb_true_iff, N.eqb_eq, IH. split.
      * intros [-> H] [|j] e He; cbn in *; [congruence|auto].
      * intros H. split; [specialize (H 0 c eq_refl); cbn in H; congruence|].
        intros j e He. exact (H (S j) e He).
Qed.
Lemma nth_error_skipn {A} i (l : list A) j : nth_error (skipn i l) j = nth_error l (i + j).
Proof. revert l; induction i as [|i IH]; intros [|x l]; cbn; try reflexivity; [destruct j; reflexivity|apply IH]. Qed.
Lemma match_spec t p i : same_prefix (skipn i t) p = true <-> mt t p i.
Proof.
  rewrite same_prefix_spec. unfold mt. cbn [Nat.add].
  split; intros H j c Hj; specialize (H j c Hj); rewrite nth_error_skipn in *; exact H.
Qed.
Lemma match_spec_false t p i : same_prefix (skipn i t) p = false <-> ~ mt t p i.
Proof. rewrite <- match_spec. destruct (same_prefix _ _); split; congruence. Qed.
Lemma mt_dec t p i : {mt t p i} + {~ mt t p i}.
Proof. destruct (same_prefix (skipn i t) p) eqn:E; [left; apply match_spec, E|right; apply match_spec_false, E]. Qed.
Lemma mt_bound t p i : p <> [] -> mt t p i -> i + length p <= length t.
Proof.
  intros Hp H. destruct (length p) as [|m] eqn:E; [destruct p; [congruence|discriminate]|].
  destruct (nth_error p m) as [c|] eqn:Ec.
  - specialize (H m c Ec). assert (nth_error t (i + m) <> None) as N by congruence.
    apply nth_error_Some in N. lia.
  - apply nth_error_None in Ec. lia.
Qed.

(** All positions below n where the pattern is, and the limit of results. *)
Definition occ_below (t p : bytes) (n : nat) : list nat := filter (fun i => same_prefix (skipn i t) p) (seq 0 n).
Definition lim (max : nat) (l : list nat) : list nat := if 0 <? max then firstn max l else l.
Definition linv (t p : bytes) (max i : nat) (acc : list nat) : Prop := acc = occ_below t p i /\ full max acc = false.

Lemma occ_S t p i : occ_below t p (S i) = occ_below t p i ++ (if same_prefix (skipn i t) p then [i] else []).
Proof. unfold occ_below. rewrite seq_S, filter_app. cbn [filter Nat.add]. destruct (same_prefix _ _); reflexivity. Qed.
Lemma occ_skip t p i j : i <= j -> (forall k, i <= k < j -> ~ mt t p k) -> occ_below t p j = occ_below t p i.
Proof.
  intros Hij H. induction j as [|j IH]; [replace i with 0 by lia; reflexivity|].
  destruct (Nat.eq_dec i (S j)) as [->|Hn]; [reflexivity|].
  rewrite occ_S, (proj2 (match_spec_false t p j)), app_nil_r by (apply H; lia).
  apply IH; [lia|]. intros k Hk; apply H; lia.
Qed.
Lemma occ_prefix t p i j : i <= j -> exists r, occ_below t p j = occ_below t p i ++ r.
Proof.
  intros H. induction j as [|j IH]; [replace i with 0 by lia; exists []; symmetry; apply app_nil_r|].
  destruct (Nat.eq_dec i (S j)) as [->|Hn]; [exists []; symmetry; apply app_nil_r|].
  destruct IH as [r Hr]; [lia|]. rewrite occ_S, Hr, <- app_assoc. eexists; reflexivity.
Qed.
Lemma linv_start t p max : linv t p max 0 [].
Proof. split; [reflexivity|]. unfold full. destruct max; reflexivity. Qed.
Lemma linv_skip t p max i j acc :
  linv t p max i acc -> i <= j -> (forall k, i <= k < j -> ~ mt t p k) -> linv t p max j acc.
Proof. intros [H1 H2] Hij H. split; [|exact H2]. rewrite (occ_skip t p i j Hij H). exact H1. Qed.
Lemma linv_end t p max i n acc :
  linv t p max i acc -> i <= n -> (forall k, i <= k < n -> ~ mt t p k) -> acc = lim max (occ_below t p n).
Proof.
  intros [H1 H2] Hij H. rewrite (occ_skip t p i n Hij H), <- H1. unfold lim, full in *.
  destruct (Nat.ltb_spec 0 max); [|reflexivity]. cbn [andb] in H2. apply Nat.leb_gt in H2.
  rewrite firstn_all2 by lia. reflexivity.
Qed.
Lemma linv_hit t p max i acc n :
  linv t p max i acc -> mt t p i -> S i <= n ->
  if full max (acc ++ [i]) then acc ++ [i] = lim max (occ_below t p n) else linv t p max (S i) (acc ++ [i]).
Proof.
  intros [H1 H2] Hm Hn.
  assert (E : acc ++ [i] = occ_below t p (S i)).
  { rewrite occ_S, (proj2 (match_spec t p i) Hm), H1. reflexivity. }
  destruct (full max (acc ++ [i])) eqn:F; [|split; assumption].
  destruct (occ_prefix t p (S i) n Hn) as [r Hr]. rewrite Hr, <- E. unfold lim, full in *.
  apply andb_true_iff in F. destruct F as [F1 F2]. rewrite F1. rewrite F1 in H2. cbn [andb] in H2.
  apply Nat.leb_gt in H2. apply Nat.leb_le in F2. rewrite app_length in F2. cbn [length] in F2.
  rewrite firstn_app. replace (max - length (acc ++ [i])) with 0 by (rewrite app_length; cbn; lia).
  rewrite firstn_O, app_nil_r, firstn_all2 by (rewrite app_length; cbn; lia). reflexivity.
Qed.
(** No match starts where the pattern does not fit. *)
Lemma no_tail t p i k : p <> [] -> length t + 1 - length p <= i -> i <= k -> ~ mt t p k.
Proof. intros Hp Hi Hk Hm. apply mt_bound in Hm; [|exact Hp]. lia. Qed.

(** First hits. *)
Definition first_spec (t p : bytes) (r : option nat) : Prop :=
  match r with
  | Some i => mt t p i /\ forall j, j < i -> ~ mt t p j
  | None => forall j, ~ (mt t p j /\ j + length p <= length t)
  end.
Lemma first_unique t p r r' : first_spec t p r -> first_spec t p r' -> (p = [] -> r <> None /\ r' <> None) -> r = r'.
Proof.
  intros H1 H2 Hp. destruct r as [i|], r' as [j|]; cbn in *; auto.
  - destruct H1 as [M1 N1], H2 as [M2 N2]. f_equal.
    destruct (Nat.lt_trichotomy i j) as [L|[L|L]]; [exfalso; exact (N2 i L M1)|exact L|exfalso; exact (N1 j L M2)].
  - exfalso. destruct p as [|c p]; [destruct Hp; congruence|].
    apply (H2 i). split; [tauto|]. apply mt_bound; [discriminate|tauto].
  - exfalso. destruct p as [|c p]; [destruct Hp; congruence|].
    apply (H1 j). split; [tauto|]. apply mt_bound; [discriminate|tauto].
Qed.
Lemma first_empty t : first_spec t [] (Some 0).
Proof. split; [intros [|j] c H; discriminate|intros j H; lia]. Qed.
(** From the list of at most one hit to the first one. *)
Lemma first_of_lim t p : p <> [] ->
  first_spec t p (match lim 1 (occ_below t p (length t)) with i :: _ => Some i | [] => None end).
Proof.
  intros Hp. unfold lim. change (0 <? 1) with true. cbn iota.
  assert (G : forall n, match occ_below t p n with
                        | i :: _ => mt t p i /\ forall j, j < i -> ~ mt t p j
                        | [] => forall j, j < n -> ~ mt t p j end).
  { induction n as [|n IH]; [cbn; intros; lia|]. rewrite occ_S.
    destruct (occ_below t p n) as [|i l] eqn:E; [|exact IH]. cbn [app].
    destruct (same_prefix (skipn n t) p) eqn:M.
    - split; [apply match_spec, M|exact IH].
    - intros j Hj. destruct (Nat.eq_dec j n) as [->|]; [apply match_spec_false, M|apply IH; lia]. }
  specialize (G (length t)). destruct (occ_below t p (length t)) as [|i l]; cbn [firstn]; [|exact G].
  intros j [M B]. destruct p as [|c p]; [congruence|]. apply (G j); [cbn [length] in B; lia|exact M].
Qed.

(** * Double loop and memchr *)
Lemma double_loop_spec f i t p :
  (forall j, j < i -> ~ mt t p j) -> length t < f + i + length p -> first_spec t p (double_loop f i t p).
Proof.
  revert i; induction f as [|f IH]; intros i H Hf; cbn [double_loop].
  - intros j [M B]. apply (H j); [lia|exact M].
  - destruct (same_prefix (skipn i t) p) eqn:E.
    + split; [apply match_spec, E|exact H].
    + apply match_spec_false in E. apply IH; [|lia].
      intros j Hj. destruct (Nat.eq_dec j i) as [->|]; [exact E|apply H; lia].
Qed.
Lemma search_double_spec t p : first_spec t p (search_double t p).
Proof.
  unfold search_double. destruct (Nat.ltb_spec (length t) (length p)).
  - intros j [M B]. lia.
  - apply double_loop_spec; [intros j Hj; lia|lia].
Qed.
Lemma memchr_spec f i c t :
  match memchr f i c t with
  | Some m => i <= m < i + f /\ nth_error t m = Some c /\ forall k, i <= k < m -> nth_error t k <> Some c
  | None => forall k, i <= k < i + f -> nth_error t k <> Some c
  end.
Proof.
  revert i; induction f as [|f IH]; intros i; cbn [memchr]; [intros k Hk; lia|].
  destruct (nth_error t i) as [d|] eqn:E.
  - destruct (N.eqb_spec d c) as [->|Hd]; [split; [lia|split; [exact E|intros; lia]]|].
    specialize (IH (S i)). destruct (memchr f (S i) c t) as [m|].
    + destruct IH as (H1 & H2 & H3). split; [lia|split; [exact H2|]].
      intros k Hk. destruct (Nat.eq_dec k i) as [->|]; [congruence|apply H3; lia].
    + intros k Hk. destruct (Nat.eq_dec k i) as [->|]; [congruence|apply IH; lia].
  - intros k Hk. apply nth_error_None in E. assert (nth_error t k = None) by (apply nth_error_None; lia). congruence.
Qed.
Lemma mt_cons t c p i : mt t (c :: p) i <-> nth_error t i = Some c /\ mt t p (S i).
Proof.
  unfold mt. split.
  - intros H. split; [specialize (H 0 c eq_refl); rewrite Nat.add_0_r in H; exact H|].
    intros j d Hj. specialize (H (S j) d Hj). rewrite Nat.add_succ_r in H. exact H.
  - intros [H1 H2] [|j] d Hj; cbn in Hj; [rewrite Nat.add_0_r; congruence|].
    rewrite Nat.add_succ_r. exact (H2 j d Hj).
Qed.
Lemma memchr_loop_spec f cur size t c p :
  (forall j, j < cur -> ~ mt t (c :: p) j) -> cur + size = Nat.max cur (length t + 1 - length (c :: p)) -> size < f ->
  first_spec t (c :: p) (memchr_loop f cur size t c p).
Proof.
  revert cur size; induction f as [|f IH]; intros cur size H Hs Hf; [lia|]. cbn [memchr_loop].
  assert (T : forall k, ~ mt t (c :: p) k -> True) by auto. clear T.
  destruct (Nat.eqb_spec size 0) as [->|Hn].
  - intros j [M B]. apply (H j); [lia|exact M].
  - pose proof (memchr_spec size cur c t) as S. destruct (memchr size cur c t) as [m|].
    + destruct S as (H1 & H2 & H3). destruct (same_prefix (skipn (Datatypes.S m) t) p) eqn:E.
      * split; [apply mt_cons; split; [exact H2|apply match_spec, E]|].
        intros j Hj Hm. destruct (Nat.lt_ge_cases j cur) as [L|L]; [exact (H j L Hm)|].
        apply (H3 j); [lia|]. apply mt_cons in Hm. tauto.
      * apply IH; [|lia|lia].
        intros j Hj Hm. destruct (Nat.lt_ge_cases j cur) as [L|L]; [exact (H j L Hm)|].
        destruct (Nat.eq_dec j m) as [->|]; [|apply (H3 j); [lia|apply mt_cons in Hm; tauto]].
        apply match_spec_false in E. apply mt_cons in Hm. tauto.
    + intros j [M B]. destruct (Nat.lt_ge_cases j cur) as [L|L]; [exact (H j L M)|].
      apply (S j); [lia|]. apply mt_cons in M. tauto.
Qed.
Lemma search_memchr_spec t p : first_spec t p (search_memchr t p).
Proof.
  destruct p as [|c p]; [apply first_empty|]. apply memchr_loop_spec; [intros; lia|cbn [length]; lia|cbn [length]; lia].
Qed.

(** * find *)
Lemma sv_find_spec t p pos :
  match sv_find t p pos with
  | Some i => pos <= i <= length t /\ mt t p i /\ forall k, pos <= k < i -> ~ mt t p k
  | None => forall k, pos <= k <= length t -> ~ mt t p k
  end.
Proof.
  unfold sv_find.
  assert (G : forall n s, match find (fun i => same_prefix (skipn i t) p) (seq s n) with
    | Some i => s <= i < s + n /\ mt t p i /\ forall k, s <= k < i -> ~ mt t p k
    | None => forall k, s <= k < s + n -> ~ mt t p k end).
  { induction n as [|n IH]; intros s; cbn [seq find]; [intros; lia|].
    destruct (same_prefix (skipn s t) p) eqn:E.
    - split; [lia|split; [apply match_spec, E|intros; lia]].
    - specialize (IH (S s)). apply match_spec_false in E. destruct (find _ (seq (S s) n)) as [i|].
      + destruct IH as (H1 & H2 & H3). split; [lia|split; [exact H2|]].
        intros k Hk. destruct (Nat.eq_dec k s) as [->|]; [exact E|apply H3; lia].
      + intros k Hk. destruct (Nat.eq_dec k s) as [->|]; [exact E|apply IH; lia]. }
  specialize (G (length t + 1 - pos) pos). destruct (find _ _) as [i|].
  - destruct G as (H1 & H2 & H3). split; [lia|split; assumption].
  - intros k Hk. apply G. lia.
Qed.
Lemma search_spec t p : first_spec t p (search t p).
Proof.
  unfold search. pose proof (sv_find_spec t p 0) as H. destruct (sv_find t p 0) as [i|].
  - destruct H as (H1 & H2 & H3). split; [exact H2|]. intros j Hj; apply H3; lia.
  - intros j [M B]. apply (H j); [lia|exact M].
Qed.
Lemma whole_loop_spec f t p max pos acc :
  p <> [] -> linv t p max pos acc -> pos <= length t -> length t < f + pos ->
  whole_loop f t p max pos acc = lim max (occ_below t p (length t)).
Proof.
  intros Hp. revert pos acc; induction f as [|f IH]; intros pos acc L Hpos Hf; [lia|]. cbn [whole_loop].
  destruct (Nat.eqb_spec pos (length t)) as [->|Hn].
  - apply linv_end with (length t); [exact L|lia|intros; lia].
  - pose proof (sv_find_spec t p pos) as S. destruct (sv_find t p pos) as [i|].
    + destruct S as (H1 & H2 & H3). pose proof (mt_bound t p i Hp H2) as B.
      assert (1 <= length p) by (destruct p; [congruence|cbn; lia]).
      assert (L' : linv t p max i acc) by (apply linv_skip with pos; [exact L|lia|exact H3]).
      pose proof (linv_hit t p max i acc (length t) L' H2 ltac:(lia)) as Hh.
      destruct (full max (acc ++ [i])); [exact Hh|]. apply IH; [exact Hh|lia|lia].
    + apply linv_end with pos; [exact L|lia|]. intros k Hk; apply S; lia.
Qed.
Lemma empty_hits_spec t max : empty_hits (length t) max = lim max (occ_below t [] (length t)).
Proof.
  unfold empty_hits, lim, occ_below. replace (filter _ _) with (seq 0 (length t)).
  - destruct (Nat.ltb_spec 0 max); [|reflexivity].
    destruct (Nat.le_gt_cases max (length t)) as [L|L].
    + rewrite Nat.min_l by lia. replace (length t) with (max + (length t - max)) by lia.
      rewrite seq_app, firstn_app, seq_length, Nat.sub_diag, firstn_O, app_nil_r, firstn_all2 by (rewrite seq_length; lia).
      reflexivity.
    + rewrite Nat.min_r by lia. rewrite firstn_all2 by (rewrite seq_length; lia). reflexivity.
  - generalize 0. induction (length t) as [|n IH]; intros s; cbn [seq filter same_prefix]; [reflexivity|].
    replace (same_prefix (skipn s t) []) with true by (destruct (skipn s t); reflexivity). f_equal. apply IH.
Qed.
Lemma whole_spec t p max : whole t p max = SHits (lim max (occ_below t p (length t))).
Proof.
  unfold whole. destruct p as [|c p]; [rewrite empty_hits_spec; reflexivity|]. f_equal.
  apply whole_loop_spec; [discriminate|apply linv_start|lia|lia].
Qed.

(** * Decompositions *)
Lemma mt_app a p b : mt (a ++ p ++ b) p (length a).
Proof.
  intros j c H. rewrite nth_error_app2 by lia. replace (length a + j - length a) with j by lia.
  rewrite nth_error_app1; [exact H|]. apply nth_error_Some. congruence.
Qed.
Lemma same_prefix_app t p : same_prefix t p = true -> exists b, t = p ++ b.
Proof.
  revert t; induction p as [|c p IH]; intros t H; [exists t; reflexivity|].
  destruct t as [|d t]; [discriminate|]. cbn [same_prefix] in H. apply andb_true_iff in H. destruct H as [H1 H2].
  apply N.eqb_eq in H1. subst d. destruct (IH t H2) as [b ->]. exists b; reflexivity.
Qed.
Lemma mt_split t p i : mt t p i -> i <= length t -> exists b, t = firstn i t ++ p ++ b.
Proof.
  intros H Hi. apply match_spec, same_prefix_app in H. destruct H as [b Hb]. exists b.
  rewrite <- Hb. symmetry; apply firstn_skipn.
Qed.
Lemma app_eq_len {A} (a b c d : list A) : a ++ b = c ++ d -> length a = length c -> a = c /\ b = d.
Proof.
  revert c; induction a as [|x a IH]; intros [|y c] H L; cbn in *; try discriminate; [auto|].
  injection H as -> H. destruct (IH c H ltac:(lia)) as [-> ->]. auto.
Qed.

(** * Knuth-Morris-Pratt *)
(** The first k bytes of the pattern end s. *)
Definition Kp (p s : bytes) (k : nat) : Prop := k <= length p /\ exists a, s = a ++ firstn k p.
Definition mx (p s : bytes) (k : nat) : Prop := Kp p s k /\ forall k', Kp p s k' -> k' <= k.
Definition border (p : bytes) (b k : nat) : Prop := b < k /\ exists a, firstn k p = a ++ firstn b p.
Definition tblok (p : bytes) (tbl : list (option nat)) : Prop :=
  forall k e, nth_error tbl k = Some e ->
    match e with
    | None => k = 0
    | Some b => border p b k /\ forall b', border p b' k -> b' <= b
    end.

Lemma firstn_snoc (p : bytes) k c : nth_error p k = Some c -> firstn (S k) p = firstn k p ++ [c].
Proof.
  revert p; induction k as [|k IH]; intros [|x p] H; cbn in *; try discriminate; [injection H as ->; reflexivity|].
  f_equal. apply IH, H.
Qed.
Lemma K_zero p s : Kp p s 0.
Proof. split; [lia|]. exists s. cbn. symmetry; apply app_nil_r. Qed.
Lemma K_succ p s c k : Kp p (s ++ [c]) (S k) <-> Kp p s k /\ nth_error p k = Some c.
Proof.
  split.
  - intros [Hk [a Ha]]. destruct (nth_error p k) as [d|] eqn:E.
    + rewrite (firstn_snoc p k d E), app_assoc in Ha. apply app_inj_tail in Ha. destruct Ha as [-> ->].
      split; [split; [lia|exists a; reflexivity]|reflexivity].
    + apply nth_error_None in E. lia.
  - intros [[Hk [a ->]] E]. split; [apply nth_error_Some; congruence|].
    exists a. rewrite (firstn_snoc p k c E), app_assoc. reflexivity.
Qed.
Lemma K_border p s k b : Kp p s k -> border p b k -> Kp p s b.
Proof.
  intros [Hk [a ->]] [Hb [a' Ha]]. split; [lia|]. exists (a ++ a'). rewrite Ha, app_assoc. reflexivity.
Qed.
Lemma suffix_cut {A} (a b c d : list A) : a ++ b = c ++ d -> length d <= length b -> exists e, b = e ++ d.
Proof.
  intros H L. exists (skipn (length a) c).
  assert (LL : length a <= length c) by (apply (f_equal (@length A)) in H; rewrite !app_length in H; lia).
  rewrite <- (firstn_skipn (length a) c), <- app_assoc in H.
  apply app_eq_len in H; [tauto|]. rewrite firstn_length. lia.
Qed.
Lemma K_lower p s k b : Kp p s k -> Kp p s b -> b < k -> border p b k.
Proof.
  intros [Hk [a Ha]] [Hb [a' Ha']] L. split; [exact L|]. rewrite Ha in Ha'.
  apply suffix_cut in Ha'; [exact Ha'|]. rewrite !firstn_length. lia.
Qed.

Lemma fall_spec p tbl s c fuel k :
  tblok p tbl -> k < length tbl -> length tbl <= S (length p) -> Kp p s k -> k < length p -> k < fuel ->
  (forall k', k < k' -> Kp p s k' -> nth_error p k' <> Some c) ->
  match kmp_fall fuel tbl p c (Some k) with
  | Some j => Kp p s j /\ nth_error p j = Some c /\ forall j', j < j' -> Kp p s j' -> nth_error p j' <> Some c
  | None => forall j', Kp p s j' -> nth_error p j' <> Some c
  end.
Proof.
  intros T. revert k; induction fuel as [|f IH]; intros k Lk Lt HK Hk Hf Hc; [lia|]. cbn [kmp_fall].
  destruct (nth_error p k) as [d|] eqn:E; [|apply nth_error_None in E; lia].
  destruct (N.eqb_spec c d) as [->|Hcd]; [split; [exact HK|split; [exact E|exact Hc]]|].
  destruct (nth_error tbl k) as [e|] eqn:Et; [|apply nth_error_None in Et; lia].
  pose proof (T k e Et) as Te. destruct e as [b|].
  - destruct Te as [B1 B2]. pose proof B1 as [Hb _].
    assert (Hx : forall k', b < k' -> Kp p s k' -> nth_error p k' <> Some c).
    { intros k' L1 L2. destruct (Nat.lt_trichotomy k' k) as [L|[->|L]].
      - pose proof (B2 k' (K_lower p s k k' HK L2 L)). lia.
      - congruence.
      - apply Hc; assumption. }
    destruct f as [|f]; [lia|]. apply IH; try lia; [exact (K_border p s k b HK B1)|exact Hx].
  - subst k. assert (G : kmp_fall f tbl p c None = None) by (destruct f; reflexivity). rewrite G.
    intros j' Hj. destruct j' as [|j']; [rewrite E; congruence|]. apply Hc; [lia|exact Hj].
Qed.
Lemma next_spec p tbl s c k :
  tblok p tbl -> k < length tbl -> length tbl <= S (length p) -> mx p s k -> k < length p ->
  mx p (s ++ [c]) (kmp_next tbl p c (Some k)).
Proof.
  intros T L1 L2 [M1 M2] Hk. unfold kmp_next.
  pose proof (fall_spec p tbl s c (S (S (length p))) k T L1 L2 M1 Hk ltac:(lia)) as F.
  specialize (F ltac:(intros k' Hk' HK; apply M2 in HK; lia)).
  destruct (kmp_fall _ _ _ _ _) as [j|].
  - destruct F as (F1 & F2 & F3). split; [apply K_succ; auto|].
    intros [|k'] HK; [lia|]. apply K_succ in HK. destruct HK as [HK Hc].
    destruct (Nat.le_gt_cases k' j); [lia|]. exfalso. apply (F3 k'); assumption.
  - split; [apply K_zero|]. intros [|k'] HK; [lia|]. apply K_succ in HK. destruct HK as [HK Hc].
    exfalso. apply (F k'); assumption.
Qed.

Lemma border_tail p j b : 0 < j <= length p -> b < j -> border p b j <-> Kp p (skipn 1 (firstn j p)) b.
Proof.
  intros Hj Hb. split.
  - intros [_ [a Ha]]. split; [lia|]. rewrite Ha. destruct a as [|x a].
    + exfalso. apply (f_equal (@length N)) in Ha. cbn [app] in Ha. rewrite !firstn_length in Ha. lia.
    + exists a. reflexivity.
  - intros [_ [a Ha]]. split; [exact Hb|]. destruct p as [|x p]; [cbn in Hj; lia|]. destruct j as [|j]; [lia|].
    cbn [firstn skipn] in *. exists (x :: a). rewrite Ha. reflexivity.
Qed.
Lemma tblok_snoc p tbl b :
  tblok p tbl -> border p b (length tbl) -> (forall b', border p b' (length tbl) -> b' <= b) -> tblok p (tbl ++ [Some b]).
Proof.
  intros T B1 B2 k e E. destruct (Nat.lt_trichotomy k (length tbl)) as [L|[->|L]].
  - rewrite nth_error_app1 in E by exact L. exact (T k e E).
  - rewrite nth_error_app2, Nat.sub_diag in E by lia. cbn in E. injection E as <-. auto.
  - assert (nth_error (tbl ++ [Some b]) k = None) by (apply nth_error_None; rewrite app_length; cbn; lia). congruence.
Qed.
Lemma kmp_table_spec p rest : forall tbl j b,
  0 < j -> length tbl = S j -> tblok p tbl -> p = firstn j p ++ rest -> length p = j + length rest ->
  mx p (skipn 1 (firstn j p)) b ->
  let tbl' := kmp_table rest p tbl (Some b) in tblok p tbl' /\ length tbl' = S (length p).
Proof.
  induction rest as [|c rest IH]; intros tbl j b Hj L T E Lp M; cbn [kmp_table]; [split; [exact T|cbn in Lp; lia]|].
  cbn [length] in Lp.
  assert (Hc : nth_error p j = Some c).
  { rewrite E, nth_error_app2; rewrite firstn_length; [|lia]. replace (j - Nat.min j (length p)) with 0 by lia. reflexivity. }
  assert (Hb : b < j).
  { destruct M as [[M0 [a Ha]] _]. apply (f_equal (@length N)) in Ha.
    rewrite app_length, skipn_length, !firstn_length in Ha. lia. }
  pose proof (next_spec p tbl (skipn 1 (firstn j p)) c b T ltac:(lia) ltac:(lia) M ltac:(lia)) as M'.
  set (b' := kmp_next tbl p c (Some b)) in *.
  assert (ES : skipn 1 (firstn j p) ++ [c] = skipn 1 (firstn (S j) p)).
  { rewrite (firstn_snoc p j c Hc). rewrite skipn_app, firstn_length. replace (1 - Nat.min j (length p)) with 0 by lia. reflexivity. }
  rewrite ES in M'.
  assert (Hb' : b' < S j).
  { destruct M' as [[M0 [a Ha]] _]. apply (f_equal (@length N)) in Ha.
    rewrite app_length, skipn_length, !firstn_length in Ha. lia. }
  cbv zeta. apply (IH (tbl ++ [Some b']) (S j) b').
  - lia.
  - rewrite app_length; cbn; lia.
  - apply tblok_snoc; [exact T|rewrite L; apply border_tail; [lia|lia|apply M']|].
    rewrite L. intros b'' B. apply M'. apply border_tail; [lia|apply B|exact B].
  - rewrite (firstn_snoc p j c Hc), <- app_assoc. exact E.
  - lia.
  - exact M'.
Qed.
Lemma kmp_table_ok p : p <> [] -> let tbl := kmp_table p p [None] None in tblok p tbl /\ length tbl = S (length p).
Proof.
  intros Hp. destruct p as [|c p]; [congruence|]. cbn [kmp_table].
  change (kmp_next [None] (c :: p) c None) with 0.
  apply (kmp_table_spec (c :: p) p ([None] ++ [Some 0]) 1 0); try reflexivity; [lia| |].
  - intros k e E. destruct k as [|[|k]]; cbn in E.
    + injection E as <-. reflexivity.
    + injection E as <-. split; [split; [lia|exists [c]; reflexivity]|]. intros b' [B _]. lia.
    + destruct k; discriminate.
  - split; [apply K_zero|]. intros k' [_ [a Ha]]. cbn in Ha. destruct a; [|discriminate]. cbn in Ha.
    destruct k'; [lia|discriminate].
Qed.

Lemma K_full_mt t p i0 s rest : i0 <= length t -> skipn i0 t = s ++ rest ->
  forall k, i0 <= k -> k + length p = i0 + length s -> (Kp p s (length p) <-> mt t p k).
Proof.
  intros Hi E k Hk Hs. unfold Kp. rewrite firstn_all. split.
  - intros [_ [a ->]]. rewrite <- (firstn_skipn i0 t), E.
    replace k with (length (firstn i0 t ++ a)) by (rewrite app_length in Hs; rewrite app_length, firstn_length; lia).
    replace (firstn i0 t ++ (a ++ p) ++ rest) with ((firstn i0 t ++ a) ++ p ++ rest) by (rewrite <- !app_assoc; reflexivity).
    apply mt_app.
  - intros M. split; [lia|].
    assert (Lt : length t = i0 + length s + length rest).
    { apply (f_equal (@length N)) in E. rewrite skipn_length, app_length in E. lia. }
    destruct (mt_split t p k M ltac:(lia)) as [b Hb].
    exists (skipn i0 (firstn k t)).
    assert (EE : skipn i0 t = (skipn i0 (firstn k t) ++ p) ++ b).
    { rewrite Hb at 1. rewrite skipn_app, firstn_length. replace (i0 - Nat.min k (length t)) with 0 by lia.
      cbn [skipn]. rewrite <- app_assoc. reflexivity. }
    rewrite E in EE. apply app_eq_len in EE; [tauto|].
    rewrite app_length, skipn_length, firstn_length. lia.
Qed.
Lemma kmp_scan_spec t p tbl i0 : p <> [] -> tblok p tbl -> length tbl = S (length p) -> i0 <= length t ->
  forall rest s o, skipn i0 t = s ++ rest -> mx p s o ->
  (forall k, i0 <= k -> k + length p < i0 + length s -> ~ mt t p k) ->
  let '(i', o') := kmp_scan tbl p rest (i0 + length s) o in
  if o' =? length p then i0 + length p <= i' <= length t /\ mt t p (i' - length p) /\ forall k, i0 <= k < i' - length p -> ~ mt t p k
  else i' = length t /\ forall k, i0 <= k -> ~ mt t p k.
Proof.
  intros Hp T LT Hi. induction rest as [|c rest IH]; intros s o E M Hn; cbn [kmp_scan].
  - assert (Lt : length t = i0 + length s).
    { apply (f_equal (@length N)) in E. rewrite skipn_length, app_length in E. cbn in E. lia. }
    destruct (Nat.eqb_spec o (length p)) as [->|Ho].
    + destruct M as [M1 M2]. assert (length p <= length s).
      { destruct M1 as [_ [a Ha]]. rewrite Ha, app_length, firstn_all. lia. }
      split; [lia|]. split.
      * apply (K_full_mt t p i0 s []); auto; lia.
      * intros k Hk. apply Hn; lia.
    + split; [lia|]. intros k Hk Hm. pose proof (mt_bound t p k Hp Hm).
      destruct (Nat.eq_dec (k + length p) (i0 + length s)) as [Ek|]; [|apply (Hn k); [lia|lia|exact Hm]].
      apply (K_full_mt t p i0 s [] Hi E k Hk Ek) in Hm. apply M in Hm. destruct M as [[? ?] ?]. lia.
  - assert (Lt : length t = i0 + length s + S (length rest)).
    { apply (f_equal (@length N)) in E. rewrite skipn_length, app_length in E. cbn in E. lia. }
    destruct (Nat.ltb_spec o (length p)) as [L|L].
    + replace (S (i0 + length s)) with (i0 + length (s ++ [c])) by (rewrite app_length; cbn; lia).
      apply IH.
      * rewrite <- app_assoc. exact E.
      * apply next_spec; auto; lia.
      * intros k Hk Hl Hm. rewrite app_length in Hl. cbn in Hl.
        destruct (Nat.eq_dec (k + length p) (i0 + length s)) as [Ek|]; [|apply (Hn k); [lia|lia|exact Hm]].
        apply (K_full_mt t p i0 s (c :: rest) Hi E k Hk Ek) in Hm. apply M in Hm. lia.
    + assert (o = length p) as -> by (destruct M as [[? ?] ?]; lia). rewrite Nat.eqb_refl.
      destruct M as [M1 M2]. assert (length p <= length s).
      { destruct M1 as [_ [a Ha]]. rewrite Ha, app_length, firstn_all. lia. }
      split; [lia|]. split.
      * apply (K_full_mt t p i0 s (c :: rest)); auto; lia.
      * intros k Hk. apply Hn; lia.
Qed.
Lemma kmp_scan_0 t p tbl i0 : p <> [] -> tblok p tbl -> length tbl = S (length p) -> i0 <= length t ->
  let '(i', o') := kmp_scan tbl p (skipn i0 t) i0 0 in
  if o' =? length p then i0 + length p <= i' <= length t /\ mt t p (i' - length p) /\ forall k, i0 <= k < i' - length p -> ~ mt t p k
  else i' = length t /\ forall k, i0 <= k -> ~ mt t p k.
Proof.
  intros Hp T LT Hi. pose proof (kmp_scan_spec t p tbl i0 Hp T LT Hi (skipn i0 t) [] 0 eq_refl) as H.
  cbn [length] in H. rewrite Nat.add_0_r in H. apply H.
  - split; [apply K_zero|]. intros k' [Hk [a Ha]]. destruct a; [|discriminate]. cbn in Ha.
    destruct k' as [|k']; [lia|]. destruct p; [congruence|discriminate].
  - intros; lia.
Qed.
Lemma kmp_loop_spec t p tbl max : p <> [] -> tblok p tbl -> length tbl = S (length p) ->
  forall f i acc, linv t p max i acc -> i <= length t -> length t < f + i ->
  kmp_loop f tbl t p max i acc = lim max (occ_below t p (length t)).
Proof.
  intros Hp T LT. assert (1 <= length p) by (destruct p; [congruence|cbn; lia]).
  induction f as [|f IH]; intros i acc L Hi Hf; [lia|]. cbn [kmp_loop].
  destruct (Nat.leb_spec (length t) i) as [Hl|Hl].
  { apply linv_end with i; [exact L|lia|intros; lia]. }
  pose proof (kmp_scan_0 t p tbl i Hp T LT Hi) as S. destruct (kmp_scan tbl p (skipn i t) i 0) as [i' o].
  destruct (o =? length p).
  - destruct S as (S1 & S2 & S3).
    assert (L' : linv t p max (i' - length p) acc) by (apply linv_skip with i; [exact L|lia|exact S3]).
    pose proof (linv_hit t p max (i' - length p) acc (length t) L' S2 ltac:(lia)) as Hh. cbv zeta.
    destruct (full max (acc ++ [i' - length p])); [exact Hh|].
    apply IH; [replace (i' - length p + 1) with (Datatypes.S (i' - length p)) by lia; exact Hh|lia|lia].
  - destruct S as (-> & S2).
    destruct f as [|f]; cbn [kmp_loop]; [|rewrite Nat.leb_refl];
      (apply linv_end with i; [exact L|lia|intros; apply S2; lia]).
Qed.
Lemma whole_kmp_spec t p max : whole_kmp t p max = SHits (lim max (occ_below t p (length t))).
Proof.
  unfold whole_kmp. destruct p as [|c p]; [rewrite empty_hits_spec; reflexivity|]. f_equal.
  destruct (kmp_table_ok (c :: p) ltac:(discriminate)) as [T L].
  apply kmp_loop_spec; [discriminate|exact T|exact L|apply linv_start|lia|lia].
Qed.
Lemma search_kmp_spec t p : first_spec t p (search_kmp t p).
Proof.
  destruct p as [|c p]; [apply first_empty|]. unfold search_kmp.
  destruct (kmp_table_ok (c :: p) ltac:(discriminate)) as [T L].
  pose proof (kmp_scan_0 t (c :: p) _ 0 ltac:(discriminate) T L ltac:(lia)) as S. cbn [skipn] in S.
  destruct (kmp_scan _ _ t 0 0) as [i o]. destruct (o =? length (c :: p)).
  - destruct S as (S1 & S2 & S3). split; [exact S2|]. intros j Hj; apply S3; lia.
  - destruct S as (S1 & S2). intros j [M _]. apply (S2 j); [lia|exact M].
Qed.

(** * Boyer-Moore *)
Definition no255 (s : bytes) : Prop := Forall (fun c => (c < 255)%N) s.
Lemma set_nth_spec {A} (x : A) l i : i < length l ->
  exists l', set_nth i x l = Some l' /\ length l' = length l /\
    forall k, nth_error l' k = if k =? i then Some x else nth_error l k.
Proof.
  revert i; induction l as [|y l IH]; intros i Hi; [cbn in Hi; lia|]. destruct i as [|i]; cbn [set_nth].
  - eexists; split; [reflexivity|]. split; [reflexivity|]. intros [|k]; reflexivity.
  - destruct (IH i ltac:(cbn in Hi; lia)) as (l' & -> & L & H). eexists; split; [reflexivity|].
    split; [cbn; lia|]. intros [|k]; [reflexivity|]. cbn [nth_error Nat.eqb]. apply H.
Qed.
Definition btab (p : bytes) (tbl : list nat) : Prop :=
  length tbl = 255 /\
  forall c s, nth_error tbl (N.to_nat c) = Some s ->
    s <= length p /\ (s < length p -> nth_error p (length p - 1 - s) = Some c) /\
    forall j, length p - s <= j < length p -> nth_error p j <> Some c.
Lemma bm_fill_spec rest : forall q tbl p, p = q ++ rest -> no255 rest -> length tbl = 255 ->
  (forall c s, nth_error tbl (N.to_nat c) = Some s ->
    length rest <= s <= length p /\ (s < length p -> nth_error p (length p - 1 - s) = Some c) /\
    forall j, length p - s <= j < length q -> nth_error p j <> Some c) ->
  exists tbl', bm_fill rest (length rest) tbl = Some tbl' /\ btab p tbl'.
Proof.
  induction rest as [|c0 rest IH]; intros q tbl p Ep Hr L H; cbn [bm_fill].
  - exists tbl. split; [reflexivity|]. split; [exact L|]. intros c s E. destruct (H c s E) as (H1 & H2 & H3).
    rewrite app_nil_r in Ep. subst q. split; [lia|split; assumption].
  - inversion Hr as [|? ? Hc0 Hr']; subst.
    destruct (set_nth_spec (length (c0 :: rest) - 1) tbl (N.to_nat c0) ltac:(lia)) as (l' & -> & L' & HN).
    cbn [length]. replace (S (length rest) - 1) with (length rest) by lia.
    apply (IH (q ++ [c0])); [rewrite <- app_assoc; reflexivity|exact Hr'|lia|].
    assert (P0 : nth_error (q ++ c0 :: rest) (length q) = Some c0) by (rewrite nth_error_app2, Nat.sub_diag by lia; reflexivity).
    assert (LP : length (q ++ c0 :: rest) = length q + S (length rest)) by (rewrite app_length; reflexivity).
    set (p := q ++ c0 :: rest) in *. clearbody p.
    intros c s E. rewrite HN in E. rewrite (app_length q [c0]). cbn [length].
    destruct (Nat.eqb_spec (N.to_nat c) (N.to_nat c0)) as [Ec|Ec].
    + injection E as <-. apply N2Nat.inj in Ec. subst c. cbn [length].
      split; [lia|]. split.
      * intros _. match goal with |- nth_error p ?x = _ => replace x with (length q) by lia end. exact P0.
      * intros j Hj. lia.
    + destruct (H c s E) as (H1 & H2 & H3). cbn [length] in H1. split; [lia|]. split; [exact H2|].
      intros j Hj. destruct (Nat.eq_dec j (length q)) as [->|]; [rewrite P0; congruence|apply H3; lia].
Qed.
Lemma nth_error_repeat' {A} (x y : A) n k : nth_error (repeat x n) k = Some y -> y = x.
Proof. revert k; induction n as [|n IH]; intros [|k] H; cbn in H; try discriminate; [congruence|eauto]. Qed.
Lemma bm_table_spec p : no255 p -> exists tbl, bm_table p = Some tbl /\ btab p tbl.
Proof.
  intros H. apply (bm_fill_spec p [] (repeat (length p) 255) p eq_refl H (repeat_length _ _)).
  intros c s E. apply nth_error_repeat' in E. subst s. split; [lia|]. split; [lia|]. cbn. intros; lia.
Qed.
Lemma bm_compare_spec t p b n : n <= length p -> b + length p <= length t ->
  match bm_compare n t p b with
  | None => forall j, j < n -> nth_error t (b + j) = nth_error p j
  | Some k => k < n /\ nth_error t (b + k) <> nth_error p k /\ forall j, k < j < n -> nth_error t (b + j) = nth_error p j
  end.
Proof.
  intros Hn Hb. induction n as [|n IH]; cbn [bm_compare]; [intros; lia|].
  destruct (nth_error t (b + n)) as [x|] eqn:Ex; [|apply nth_error_None in Ex; lia].
  destruct (nth_error p n) as [y|] eqn:Ey; [|apply nth_error_None in Ey; lia].
  destruct (N.eqb_spec x y) as [->|Hxy].
  - specialize (IH ltac:(lia)). destruct (bm_compare n t p b) as [k|].
    + destruct IH as (H1 & H2 & H3). split; [lia|]. split; [exact H2|]. intros j Hj.
      destruct (Nat.eq_dec j n) as [->|]; [congruence|apply H3; lia].
    + intros j Hj. destruct (Nat.eq_dec j n) as [->|]; [congruence|apply IH; lia].
  - split; [lia|]. split; [congruence|]. intros; lia.
Qed.
(** The shift is safe. *)
Lemma bm_shift t p tbl b pi c s d : btab p tbl -> b + length p <= length t -> pi < length p ->
  nth_error t (b + pi) = Some c -> nth_error tbl (N.to_nat c) = Some s ->
  length p - 1 < s + pi -> 0 < d < s + pi - (length p - 1) -> ~ mt t p (b + d).
Proof.
  intros [_ T] Hb Hpi Hc Hs Hlt Hd Hm. destruct (T c s Hs) as (T1 & T2 & T3).
  assert (d <= pi) by lia.
  destruct (nth_error p (pi - d)) as [x|] eqn:E; [|apply nth_error_None in E; lia].
  pose proof (Hm _ _ E) as M. replace (b + d + (pi - d)) with (b + pi) in M by lia.
  apply (T3 (pi - d)); [lia|congruence].
Qed.
Lemma bm_shift2 t p tbl b pi c s : btab p tbl -> b + length p <= length t -> pi < length p ->
  nth_error t (b + pi) = Some c -> nth_error tbl (N.to_nat c) = Some s ->
  s + pi <= length p - 1 -> nth_error t (b + pi) <> nth_error p pi ->
  (forall j, pi < j < length p -> nth_error t (b + j) = nth_error p j) -> ~ mt t p (b + 1).
Proof.
  intros [_ T] Hb Hpi Hc Hs Hle Hne Heq Hm. destruct (T c s Hs) as (T1 & T2 & T3).
  assert (G : forall k, pi + k < length p -> nth_error p (pi + k) = nth_error p pi).
  { induction k as [|k IH]; intros Hk; [rewrite Nat.add_0_r; reflexivity|]. rewrite <- IH by lia.
    destruct (nth_error p (pi + k)) as [x|] eqn:E; [|apply nth_error_None in E; lia].
    pose proof (Hm _ _ E) as M. rewrite <- Heq by lia. rewrite <- M. f_equal. lia. }
  specialize (T2 ltac:(lia)). apply Hne. rewrite Hc, <- T2.
  replace (length p - 1 - s) with (pi + (length p - 1 - s - pi)) by lia. apply G. lia.
Qed.
Lemma bm_loop_spec t p tbl max : p <> [] -> no255 t -> btab p tbl ->
  forall f b acc, linv t p max b acc -> length t < f + b ->
  bm_loop f tbl t p max b acc = SHits (lim max (occ_below t p (length t))).
Proof.
  intros Hp Ht T. assert (Lp : 1 <= length p) by (destruct p; [congruence|cbn; lia]).
  assert (FIN : forall b acc, linv t p max b acc -> length t + 1 - length p <= b -> acc = lim max (occ_below t p (length t))).
  { intros b acc L Hb. destruct (Nat.le_gt_cases b (length t)) as [Lb|Lb].
    - apply linv_end with b; [exact L|exact Lb|]. intros k Hk. apply (no_tail t p b k Hp Hb). lia.
    - destruct L as [L1 L2].
      assert (L : linv t p max (length t) acc).
      { split; [|exact L2]. rewrite L1. apply occ_skip; [lia|].
        intros k Hk. apply (no_tail t p (length t) k Hp); lia. }
      apply linv_end with (length t); [exact L|lia|intros; lia]. }
  induction f as [|f IH]; intros b acc L Hf; cbn [bm_loop].
  { f_equal. apply (FIN b); [exact L|lia]. }
  destruct (Nat.ltb_spec b (length t + 1 - length p)) as [Hb|Hb]; [|f_equal; apply (FIN b); assumption].
  assert (Hb' : b + length p <= length t) by lia.
  assert (SOME : forall j, j < length p -> exists c s, nth_error t (b + j) = Some c /\ nth_error tbl (N.to_nat c) = Some s).
  { intros j Hj. destruct (nth_error t (b + j)) as [c|] eqn:E; [|apply nth_error_None in E; lia].
    assert (c < 255)%N by (exact (proj1 (Forall_forall _ _) Ht c (nth_error_In _ _ E))).
    destruct (nth_error tbl (N.to_nat c)) as [s|] eqn:Es; [|apply nth_error_None in Es; destruct T; lia].
    exists c, s. auto. }
  pose proof (bm_compare_spec t p b (length p) (le_n _) Hb') as C. cbv zeta.
  destruct (bm_compare (length p) t p b) as [pi|].
  - destruct C as (C1 & C2 & C3). cbn [andb]. destruct (SOME pi C1) as (c & s & E & Es). rewrite E, Es.
    assert (N0 : ~ mt t p b).
    { intros Hm. destruct (nth_error p pi) as [x|] eqn:Ex; [|apply nth_error_None in Ex; lia].
      apply C2. rewrite (Hm _ _ Ex). reflexivity. }
    destruct (Nat.ltb_spec (length p - 1) (s + pi)) as [Hs|Hs].
    + apply IH; [|lia]. apply linv_skip with b; [exact L|lia|].
      intros k Hk. destruct (Nat.eq_dec k b) as [->|]; [exact N0|].
      replace k with (b + (k - b)) by lia. apply (bm_shift t p tbl b pi c s (k - b)); auto; lia.
    + apply IH; [|lia]. apply linv_skip with b; [exact L|lia|].
      intros k Hk. destruct (Nat.eq_dec k b) as [->|]; [exact N0|].
      replace k with (b + 1) by lia. apply (bm_shift2 t p tbl b pi c s); auto.
  - assert (M : mt t p b).
    { intros j x Ex. rewrite C; [exact Ex|]. apply nth_error_Some. congruence. }
    pose proof (linv_hit t p max b acc (length t) L M ltac:(lia)) as Hh. cbn [andb].
    destruct (full max (acc ++ [b])); [rewrite Hh; reflexivity|].
    destruct (SOME 0 ltac:(lia)) as (c & s & E & Es). rewrite E, Es.
    assert (s <= length p) by (destruct T as [_ T]; apply (T c s Es)).
    replace (if length p - 1 <? s + 0 then s + 0 - (length p - 1) else 1) with 1
      by (destruct (Nat.ltb_spec (length p - 1) (s + 0)); lia).
    apply IH; [replace (b + 1) with (S b) by lia; exact Hh|lia].
Qed.
Lemma whole_bm_spec t p max : no255 t -> no255 p -> whole_bm t p max = SHits (lim max (occ_below t p (length t))).
Proof.
  intros Ht Hq. unfold whole_bm. destruct p as [|c p]; [rewrite empty_hits_spec; reflexivity|].
  destruct (bm_table_spec (c :: p) Hq) as (tbl & -> & T).
  apply bm_loop_spec; [discriminate|exact Ht|exact T|apply linv_start|lia].
Qed.
Lemma search_bm_spec t p : no255 t -> no255 p -> exists r, search_bm t p = Some r /\ first_spec t p r.
Proof.
  intros Ht Hq. destruct p as [|c p]; [exists (Some 0); split; [reflexivity|apply first_empty]|].
  unfold search_bm. rewrite whole_bm_spec by assumption. cbn [first_hit].
  eexists; split; [reflexivity|]. apply first_of_lim. discriminate.
Qed.

(** * Rabin-Karp *)
Lemma rk_hash_app a b h : rk_hash (a ++ b) h = rk_hash b (rk_hash a h).
Proof. revert h; induction a as [|x a IH]; intros h; cbn [app rk_hash]; [reflexivity|apply IH]. Qed.
Fixpoint rv (h : N) (w : bytes) : N := match w with [] => h | c :: w' => rv (h * rk_base + c)%N w' end.
Lemma rv_mod w : forall h, rk_hash w (h mod rk_mod)%N = (rv h w mod rk_mod)%N.
Proof.
  induction w as [|c w IH]; intros h; cbn [rk_hash rv]; [reflexivity|].
  rewrite <- IH. f_equal. rewrite (N.add_mod (h mod rk_mod * rk_base)), N.mul_mod_idemp_l by discriminate.
  rewrite <- N.add_mod by discriminate. reflexivity.
Qed.
Lemma rv_app a b h : rv h (a ++ b) = rv (rv h a) b.
Proof. revert h; induction a as [|x a IH]; intros h; cbn [app rv]; [reflexivity|apply IH]. Qed.
Lemma rv_lin w : forall h, rv h w = (h * rk_base ^ N.of_nat (length w) + rv 0 w)%N.
Proof.
  induction w as [|c w IH]; intros h; cbn [length rv]; [cbn; lia|].
  rewrite IH, (IH (0 * rk_base + c)%N). rewrite Nat2N.inj_succ, N.pow_succ_r'. lia.
Qed.
Lemma rk_power_spec n : forall pw, rk_power n (pw mod rk_mod)%N = ((pw * rk_base ^ N.of_nat n) mod rk_mod)%N.
Proof.
  induction n as [|n IH]; intros pw; cbn [rk_power]; [cbn; rewrite N.mul_1_r; reflexivity|].
  rewrite N.mul_mod_idemp_l, IH by discriminate. f_equal. rewrite Nat2N.inj_succ, N.pow_succ_r'. lia.
Qed.
Lemma rk_sub_mod a b : ((if (a mod rk_mod <? b mod rk_mod)%N then (a mod rk_mod + rk_mod - b mod rk_mod)
   else (a mod rk_mod - b mod rk_mod))%N < rk_mod)%N /\
  (((if (a mod rk_mod <? b mod rk_mod)%N then (a mod rk_mod + rk_mod - b mod rk_mod)
   else (a mod rk_mod - b mod rk_mod)) + b) mod rk_mod)%N = (a mod rk_mod)%N.
Proof.
  pose proof (N.mod_lt a rk_mod ltac:(discriminate)) as Ha. pose proof (N.mod_lt b rk_mod ltac:(discriminate)) as Hb.
  rewrite <- N.add_mod_idemp_r by discriminate.
  set (x := (a mod rk_mod)%N) in *. set (y := (b mod rk_mod)%N) in *. clearbody x y.
  destruct (N.ltb_spec x y); split; try lia.
  - replace (x + rk_mod - y + y)%N with (x + 1 * rk_mod)%N by lia. rewrite N.mod_add by discriminate.
    apply N.mod_small; exact Ha.
  - replace (x - y + y)%N with x by lia. apply N.mod_small; exact Ha.
Qed.
Lemma mod_cancel u v w : (u < rk_mod)%N -> ((u + w) mod rk_mod)%N = ((v + w) mod rk_mod)%N -> u = (v mod rk_mod)%N.
Proof.
  intros Hu H. rewrite <- (N.mod_small u rk_mod) by exact Hu.
  pose proof (N.div_mod (u + w) rk_mod ltac:(discriminate)) as E1.
  pose proof (N.div_mod (v + w) rk_mod ltac:(discriminate)) as E2.
  rewrite H in E1. generalize dependent ((v + w) mod rk_mod)%N. intros r _ E1 E2.
  set (q1 := ((u + w) / rk_mod)%N) in *. set (q2 := ((v + w) / rk_mod)%N) in *. clearbody q1 q2.
  assert (E : (u + q2 * rk_mod = v + q1 * rk_mod)%N) by lia.
  rewrite <- (N.mod_add u q2), <- (N.mod_add v q1), E by discriminate. reflexivity.
Qed.
Lemma rk_roll_grow w c : rk_roll (rk_hash w 0) c 0 None = rk_hash (w ++ [c]) 0.
Proof. rewrite rk_hash_app. reflexivity. Qed.
Lemma rk_roll_none h c pw : rk_roll h c pw None = rk_roll h c 0 None.
Proof. reflexivity. Qed.
Lemma rk_roll_shift d w c : 
  rk_roll (rk_hash (d :: w) 0) c (rk_power (S (length w)) 1) (Some d) = rk_hash (w ++ [c]) 0.
Proof.
  unfold rk_roll. cbv zeta.
  rewrite (rv_mod (d :: w) 0 : rk_hash (d :: w) 0 = _), (rv_mod (w ++ [c]) 0 : rk_hash (w ++ [c]) 0 = _).
  rewrite (rk_power_spec (S (length w)) 1 : rk_power (S (length w)) 1 = _).
  rewrite N.mul_1_l, (N.mul_mod_idemp_l _ d) by discriminate.
  rewrite <- (N.add_mod_idemp_l (rv 0 (d :: w) mod rk_mod * rk_base)), N.mul_mod_idemp_l, N.add_mod_idemp_l by discriminate.
  set (a := (rv 0 (d :: w) * rk_base + c)%N). set (b := (rk_base ^ N.of_nat (S (length w)) * d)%N).
  destruct (rk_sub_mod a b) as [H1 H2]. apply (mod_cancel _ _ b H1). rewrite H2. f_equal.
  unfold a, b. rewrite rv_app. cbn [rv]. rewrite (rv_lin w (0 * rk_base + d)%N), Nat2N.inj_succ, N.pow_succ_r'. lia.
Qed.
Lemma rk_loop_spec t p max : p <> [] ->
  forall rest pre w acc, t = pre ++ w ++ rest -> length w <= length p -> (length w < length p -> pre = []) ->
  linv t p max (length pre + length w + 1 - length p) acc ->
  rk_loop rest t p (rk_hash p 0) (rk_power (length p) 1) max (length pre + length w) (rk_hash w 0) acc
  = lim max (occ_below t p (length t)).
Proof.
  intros Hp. assert (Lp : 1 <= length p) by (destruct p; [congruence|cbn; lia]).
  induction rest as [|c rest IH]; intros pre w acc Et Lw Hpre L; cbn [rk_loop].
  - rewrite app_nil_r in Et. assert (LT : length t = length pre + length w) by (rewrite Et, app_length; reflexivity).
    apply linv_end with (length pre + length w + 1 - length p); [exact L|lia|].
    intros k Hk. apply (no_tail t p (length pre + length w + 1 - length p) k Hp); lia.
  - (* the new window *)
    assert (W : exists pre' w', t = pre' ++ w' ++ rest /\ length w' <= length p /\ (length w' < length p -> pre' = []) /\
              length pre' + length w' = S (length pre + length w) /\
              rk_roll (rk_hash w 0) c (rk_power (length p) 1)
                (if length p <=? length pre + length w then nth_error t (length pre + length w - length p) else None)
              = rk_hash w' 0).
    { destruct (Nat.leb_spec (length p) (length pre + length w)) as [Hl|Hl].
      - destruct (Nat.lt_ge_cases (length w) (length p)) as [Hw|Hw]; [rewrite (Hpre Hw) in Hl; cbn in Hl; lia|].
        destruct w as [|d w]; [cbn in Hw; lia|]. exists (pre ++ [d]), (w ++ [c]).
        split; [rewrite Et; rewrite <- !app_assoc; reflexivity|].
        rewrite !app_length. cbn [length] in *. split; [lia|]. split; [lia|]. split; [lia|].
        replace (nth_error t (length pre + S (length w) - length p)) with (Some d).
        + replace (length p) with (S (length w)) by lia. apply rk_roll_shift.
        + rewrite Et. replace (length pre + S (length w) - length p) with (length pre) by lia.
          rewrite nth_error_app2, Nat.sub_diag by lia. reflexivity.
      - assert (Hw : length w < length p) by lia. pose proof (Hpre Hw) as ->. exists [], (w ++ [c]).
        split; [rewrite Et; rewrite <- app_assoc; reflexivity|].
        rewrite app_length. cbn [length]. split; [lia|]. split; [auto|]. split; [lia|].
        rewrite rk_roll_none. apply rk_roll_grow. }
    destruct W as (pre' & w' & Et' & Lw' & Hpre' & Li & ->). cbv zeta.
    set (i := length pre + length w) in *. 
    assert (LT : length t = length pre' + length w' + length rest) by (rewrite Et', !app_length; lia).
    destruct ((rk_hash p 0 =? rk_hash w' 0)%N && (length p - 1 <=? i) && same_prefix (skipn (i - (length p - 1)) t) p) eqn:C.
    + apply andb_true_iff in C. destruct C as [C C3]. apply andb_true_iff in C. destruct C as [C1 C2].
      apply Nat.leb_le in C2. apply match_spec in C3.
      replace (i + 1 - length p) with (i - (length p - 1)) in L by lia.
      pose proof (linv_hit t p max _ acc (length t) L C3 ltac:(lia)) as Hh.
      destruct (full max (acc ++ [i - (length p - 1)])); [exact Hh|].
      rewrite <- Li. apply IH; auto. replace (length pre' + length w' + 1 - length p) with (S (i - (length p - 1))) by lia. exact Hh.
    + rewrite <- Li. apply IH; auto. apply linv_skip with (i + 1 - length p); [exact L|lia|].
      intros k Hk Hm. assert (Ek : k = i - (length p - 1)) by lia. assert (Hi : length p - 1 <= i) by lia.
      assert (w' = p) as ->.
      { destruct (Nat.lt_ge_cases (length w') (length p)) as [Hw|Hw]; [rewrite (Hpre' Hw) in *; cbn in Li; lia|].
        destruct (mt_split t p k Hm ltac:(lia)) as [b Hb]. rewrite Et' in Hb at 1.
        apply app_eq_len in Hb; [|rewrite firstn_length; lia]. destruct Hb as [_ Hb].
        apply app_eq_len in Hb; [tauto|lia]. }
      rewrite N.eqb_refl, (proj2 (Nat.leb_le _ _) Hi) in C. cbn [andb] in C.
      apply match_spec_false in C. rewrite <- Ek in C. exact (C Hm).
Qed.
Lemma whole_rk_spec t p max : whole_rk t p max = SHits (lim max (occ_below t p (length t))).
Proof.
  unfold whole_rk. destruct p as [|c p]; [rewrite empty_hits_spec; reflexivity|]. f_equal.
  apply (rk_loop_spec t (c :: p) max ltac:(discriminate) t [] []); [reflexivity|cbn; lia|auto|].
  cbn. destruct (length p); apply linv_start.
Qed.
Lemma search_rk_spec t p : first_spec t p (search_rk t p).
Proof.
  destruct p as [|c p]; [apply first_empty|]. unfold search_rk. rewrite whole_rk_spec.
  pose proof (first_of_lim t (c :: p) ltac:(discriminate)) as H. destruct (lim 1 _); exact H.
Qed.

(** * Z algorithm *)
(** z is the length of the longest common prefix of s and of s from i on. *)
Definition zok (s : bytes) (i z : nat) : Prop :=
  i + z <= length s /\ (forall k, k < z -> nth_error s k = nth_error s (i + k)) /\ nth_error s z <> nth_error s (i + z).
Lemma z_extend_spec s lf : 1 <= lf -> forall f rt, lf <= rt <= length s -> length s <= f + rt ->
  (forall k, k < rt - lf -> nth_error s k = nth_error s (lf + k)) ->
  let r := z_extend f s lf rt in rt <= r <= length s /\ zok s lf (r - lf).
Proof.
  intros Hl. induction f as [|f IH]; intros rt Hr Hf He; cbn [z_extend].
  - assert (rt = length s) by lia. split; [lia|]. split; [lia|]. split; [exact He|].
    replace (lf + (rt - lf)) with rt by lia.
    rewrite (proj2 (nth_error_None s rt)) by lia. apply nth_error_Some. lia.
  - destruct (nth_error s rt) as [a|] eqn:Ea.
    + assert (Hrt : rt < length s) by (apply nth_error_Some; congruence).
      destruct (nth_error s (rt - lf)) as [b|] eqn:Eb; [|apply nth_error_None in Eb; lia].
      destruct (N.eqb_spec a b) as [->|Hab].
      * destruct (IH (S rt)) as [I1 I2]; [lia|lia| |].
        { intros k Hk. destruct (Nat.eq_dec k (rt - lf)) as [->|]; [|apply He; lia].
          replace (lf + (rt - lf)) with rt by lia. congruence. }
        split; [lia|exact I2].
      * split; [lia|]. split; [lia|]. split; [exact He|].
        replace (lf + (rt - lf)) with rt by lia. congruence.
    + apply nth_error_None in Ea. assert (rt = length s) by lia. split; [lia|]. split; [lia|]. split; [exact He|].
      replace (lf + (rt - lf)) with rt by lia.
      rewrite (proj2 (nth_error_None s rt)) by lia. apply nth_error_Some. lia.
Qed.
Definition zinv (s : bytes) (i : nat) (st : list nat * nat * nat) : Prop :=
  let '(z, lf, rt) := st in
  length z = i /\ (forall j, 1 <= j < i -> zok s j (nth j z 0)) /\
  (rt < i \/ (1 <= lf < i /\ rt < length s /\ forall k, k <= rt - lf -> nth_error s k = nth_error s (lf + k))).
Lemma z_snoc s i z x : length z = i -> (forall j, 1 <= j < i -> zok s j (nth j z 0)) -> zok s i x ->
  length (z ++ [x]) = S i /\ forall j, 1 <= j < S i -> zok s j (nth j (z ++ [x]) 0).
Proof.
  intros L H Hx. split; [rewrite app_length; cbn; lia|]. intros j Hj.
  destruct (Nat.eq_dec j i) as [->|].
  - rewrite app_nth2, L, Nat.sub_diag by lia. exact Hx.
  - rewrite app_nth1 by lia. apply H; lia.
Qed.
Lemma z_step_spec s i st : 1 <= i < length s -> zinv s i st -> zinv s (S i) (z_step s i st).
Proof.
  intros Hi. destruct st as [[z lf] rt]. intros (L & H & D). unfold z_step.
  assert (EXT : forall rt0, i <= rt0 <= length s -> (forall k, k < rt0 - i -> nth_error s k = nth_error s (i + k)) ->
     zinv s (S i) (let r := z_extend (length s) s i rt0 in (z ++ [r - i], i, r - 1))).
  { intros rt0 H1 H2. destruct (z_extend_spec s i ltac:(lia) (length s) rt0 H1 ltac:(lia) H2) as [E1 E2].
    cbv zeta. set (r := z_extend (length s) s i rt0) in *. clearbody r.
    destruct (z_snoc s i z (r - i) L H E2) as [S1 S2]. split; [exact S1|]. split; [exact S2|].
    destruct (Nat.lt_ge_cases (r - 1) (S i)); [left; lia|]. right. split; [lia|]. split; [lia|].
    intros k Hk. apply E2. lia. }
  destruct (Nat.ltb_spec rt i) as [Hr|Hr]; [apply EXT; [lia|intros; lia]|].
  destruct D as [D|(D1 & D2 & D3)]; [lia|]. cbv zeta.
  pose proof (H (i - lf) ltac:(lia)) as Z. set (zk := nth (i - lf) z 0) in *. clearbody zk.
  destruct Z as (Z1 & Z2 & Z3).
  destruct (Nat.ltb_spec zk (rt - i + 1)) as [Hz|Hz].
  - assert (T : forall j, i + j <= rt -> nth_error s (i - lf + j) = nth_error s (i + j)).
    { intros j Hj. rewrite (D3 (i - lf + j)) by lia. f_equal. lia. }
    destruct (z_snoc s i z zk L H) as [S1 S2].
    { split; [lia|]. split; [intros k Hk; rewrite Z2, T by lia; reflexivity|]. rewrite <- T by lia. exact Z3. }
    split; [exact S1|]. split; [exact S2|]. right. split; [lia|]. split; assumption.
  - apply EXT; [lia|]. intros k Hk. rewrite Z2 by lia. rewrite (D3 (i - lf + k)) by lia. f_equal. lia.
Qed.
Lemma z_loop_spec s n : forall i st, 1 <= i -> i + n <= length s -> zinv s i st -> zinv s (i + n) (z_loop n i s st).
Proof.
  induction n as [|n IH]; intros i st Hi Hn Z; cbn [z_loop]; [rewrite Nat.add_0_r; exact Z|].
  replace (i + S n) with (S i + n) by lia. apply IH; [lia|lia|]. apply z_step_spec; [lia|exact Z].
Qed.
Lemma z_array_spec s j : 1 <= j < length s -> zok s j (nth j (z_array s) 0).
Proof.
  intros Hj. unfold z_array. pose proof (z_loop_spec s (length s - 1) 1 ([0], 0, 0) ltac:(lia) ltac:(lia)) as Z.
  replace (1 + (length s - 1)) with (length s) in Z by lia.
  destruct (z_loop (length s - 1) 1 s ([0], 0, 0)) as [[z lf] rt]. cbn [fst].
  apply Z; [|exact Hj]. split; [reflexivity|]. split; [intros; lia|]. left; lia.
Qed.
Lemma zok_unique s i z z' : zok s i z -> zok s i z' -> z = z'.
Proof.
  intros (A1 & A2 & A3) (B1 & B2 & B3). destruct (Nat.lt_trichotomy z z') as [L|[L|L]]; [|exact L|].
  - exfalso. apply A3, B2, L.
  - exfalso. apply B3, A2, L.
Qed.
(** What the Z search looks for: a match not followed by a NUL. *)
Definition zmt (t p : bytes) (j : nat) : Prop := mt t p j /\ nth_error t (j + length p) <> Some 0%N.
Lemma zok_zmt t p j : j < length t ->
  (nth (length p + 1 + j) (z_array (p ++ [0%N] ++ t)) 0 = length p <-> zmt t p j).
Proof.
  intros Hj. set (s := p ++ [0%N] ++ t).
  assert (LS : length s = length p + 1 + length t) by (unfold s; rewrite !app_length; cbn; lia).
  pose proof (z_array_spec s (length p + 1 + j) ltac:(lia)) as Z.
  assert (P : forall k, k < length p -> nth_error s k = nth_error p k) by (intros k Hk; apply nth_error_app1; exact Hk).
  assert (P0 : nth_error s (length p) = Some 0%N) by (unfold s; rewrite nth_error_app2, Nat.sub_diag by lia; reflexivity).
  assert (T : forall k, nth_error s (length p + 1 + k) = nth_error t k).
  { intros k. unfold s. rewrite nth_error_app2 by lia. replace (length p + 1 + k - length p) with (S k) by lia. reflexivity. }
  split.
  - intros E. rewrite E in Z. destruct Z as (Z1 & Z2 & Z3). split.
    + intros k c Hc. assert (k < length p) by (apply nth_error_Some; congruence).
      rewrite <- T, Nat.add_assoc, <- Z2, P by lia. exact Hc.
    + rewrite <- Nat.add_assoc, T, P0 in Z3. congruence.
  - intros [M1 M2]. apply (zok_unique s (length p + 1 + j)); [exact Z|].
    assert (Le : length p <= length t - j).
    { destruct p as [|c p]; [cbn; lia|]. pose proof (mt_bound t (c :: p) j ltac:(discriminate) M1). lia. }
    split; [lia|]. split.
    + intros k Hk. rewrite P by exact Hk. rewrite <- Nat.add_assoc, T.
      destruct (nth_error p k) as [c|] eqn:E; [symmetry; apply M1, E|apply nth_error_None in E; lia].
    + rewrite <- Nat.add_assoc, T, P0. congruence.
Qed.
Lemma z_find_spec t p n : forall j, j + n = length t ->
  match z_find n (length p + 1 + j) (z_array (p ++ [0%N] ++ t)) (length p) with
  | Some i => j <= i < length t /\ zmt t p i /\ forall k, j <= k < i -> ~ zmt t p k
  | None => forall k, j <= k < length t -> ~ zmt t p k
  end.
Proof.
  induction n as [|n IH]; intros j Hn; cbn [z_find]; [intros; lia|].
  destruct (Nat.eqb_spec (nth (length p + 1 + j) (z_array (p ++ [0%N] ++ t)) 0) (length p)) as [E|E].
  - apply zok_zmt in E; [|lia]. replace (length p + 1 + j - 1 - length p) with j by lia.
    split; [lia|]. split; [exact E|intros; lia].
  - rewrite zok_zmt in E by lia. specialize (IH (S j) ltac:(lia)).
    replace (S (length p + 1 + j)) with (length p + 1 + S j) by lia.
    destruct (z_find n _ _ _) as [i|].
    + destruct IH as (I1 & I2 & I3). split; [lia|]. split; [exact I2|]. intros k Hk.
      destruct (Nat.eq_dec k j) as [->|]; [exact E|apply I3; lia].
    + intros k Hk. destruct (Nat.eq_dec k j) as [->|]; [exact E|apply IH; lia].
Qed.
Lemma search_z_exact t p :
  match search_z t p with
  | Some i => i < length t /\ zmt t p i /\ forall k, k < i -> ~ zmt t p k
  | None => forall k, k < length t -> ~ zmt t p k
  end.
Proof.
  unfold search_z. cbv zeta. pose proof (z_find_spec t p (length t) 0 eq_refl) as H. rewrite Nat.add_0_r in H.
  destruct (z_find _ _ _ _) as [i|].
  - destruct H as (H1 & H2 & H3). split; [lia|]. split; [exact H2|]. intros k Hk; apply H3; lia.
  - intros k Hk; apply H; lia.
Qed.
Lemma search_z_spec t p : ~ In 0%N t -> t <> [] \/ p <> [] -> first_spec t p (search_z t p).
Proof.
  intros H0 Hne. assert (Z : forall j, mt t p j -> zmt t p j).
  { intros j M. split; [exact M|]. intros E. apply H0. exact (nth_error_In _ _ E). }
  pose proof (search_z_exact t p) as H. destruct (search_z t p) as [i|].
  - destruct H as (H1 & H2 & H3). split; [apply H2|]. intros k Hk M. apply (H3 k Hk), Z, M.
  - intros j [M B]. destruct (Nat.lt_ge_cases j (length t)) as [L|L]; [exact (H j L (Z j M))|].
    assert (p = []) as -> by (destruct p; [reflexivity|cbn in B; lia]).
    destruct t as [|c t]; [destruct Hne; congruence|]. apply (H 0 ltac:(cbn; lia)), Z.
    intros [|k] d Hd; discriminate.
Qed.

(** * Batches *)
Lemma batch_rk_nonempty t p max : p <> [] -> batch_rk_one t p max = whole_rk t p max.
Proof. destruct p; [congruence|reflexivity]. Qed.
