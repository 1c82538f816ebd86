(** C47: searching for keys returns exactly the matching ones. *)
From Coq Require Import List NArith ZArith Bool Arith Lia Sorted.
Import ListNotations.
From Verif Require Import Bytes BytesOrder StatusModel DbmModel StrSearchModel StrSearchProofs StrSearchProps OmapSpec OmapHist OmapFacts
  PathModel PathSpec PathProofs TopkModel TopkProofs TopkProps SearchModel SearchProofs.
Local Open Scope nat_scope.

(** StrWordSearch gives the first place where the pattern stands as a word: no place between two letters or digits is
    at either end.  StrCaseSearch gives the first place that agrees apart from the case of ASCII letters, and
    StrCaseWordSearch the first that does both. *)
Theorem C47_word_search : forall t p, first_hit_of (word_at t p) (word_search t p).
Proof. exact word_search_spec. Qed.
Theorem C47_case_search : forall t p, first_hit_of (occurs_at (lower_case t) (lower_case p)) (case_search t p).
Proof. exact (case_search_gen_spec false). Qed.
Theorem C47_case_word_search : forall t p, first_hit_of (word_at (lower_case t) (lower_case p)) (case_word_search t p).
Proof. exact (case_search_gen_spec true). Qed.
(* "ab bab ab", "ab bab-b!" and "aB-B" *)
Example C47_word_case :
  word_search [97; 98; 32; 98; 97; 98; 32; 97; 98]%N [98]%N = WMiss /\
  word_search [97; 98; 32; 98; 97; 98; 45; 98; 33]%N [98]%N = WHit 7 /\
  case_word_search [97; 66; 45; 66]%N [98]%N = WHit 3 /\ case_search [97; 66; 45; 66]%N [98]%N = WHit 1.
Proof. vm_compute. auto. Qed.

(** * SearchDBMModal *)
(** A nonempty line of the pattern. *)
Definition line_of (pattern l : bytes) : Prop := In l (parts 10%N pattern) /\ l <> [].
Definition matches (m : mode) (pattern key : bytes) : Prop :=
  match m with
  | MContain => exists i, occurs_at key pattern i
  | MBegin => exists s, key = pattern ++ s
  | MEnd => exists s, key = s ++ pattern
  | MCase => exists i, occurs_at (lower_case key) (lower_case pattern) i
  | MWord => exists i, word_at key pattern i
  | MCaseWord => exists i, word_at (lower_case key) (lower_case pattern) i
  | MContainAny => exists l, line_of pattern l /\ exists i, occurs_at key l i
  | MCaseAny => exists l, line_of pattern l /\ exists i, occurs_at (lower_case key) (lower_case l) i
  | MWordAny => exists l, line_of pattern l /\ exists i, word_at key l i
  | MCaseWordAny => exists l, line_of pattern l /\ exists i, word_at (lower_case key) (lower_case l) i
  end.
Lemma line_in pattern l : In l (str_split newline true pattern) <-> line_of pattern l.
Proof.
  rewrite str_split_skip, filter_In. unfold line_of, newline. destruct l; cbn; intuition congruence.
Qed.
Lemma matcher_spec m pattern key : exists b, matcher m pattern key = Some b /\ (b = true <-> matches m pattern key).
Proof.
  assert (A : forall f (Q : bytes -> Prop), (forall p, exists b, f key p = Some b /\ (b = true <-> Q p)) ->
    exists b, any_hit f key (str_split newline true pattern) = Some b /\ (b = true <-> exists l, line_of pattern l /\ Q l)).
  { intros f Q H. destruct (any_hit_spec f Q key (str_split newline true pattern)) as (b & E & Hb); [auto|].
    exists b. split; auto. rewrite Hb. split; intros (l & Hl & HQ); exists l; split; auto; now apply line_in. }
  destruct m; cbn [matcher matches].
  - eexists. split; [reflexivity|apply contains_spec].
  - eexists. split; [reflexivity|apply begins_spec].
  - eexists. split; [reflexivity|apply ends_spec].
  - apply hit_spec, C47_case_search.
  - apply hit_spec, C47_word_search.
  - apply hit_spec, C47_case_word_search.
  - apply A. intros p. eexists. split; [reflexivity|apply contains_spec].
  - apply A. intros p. apply hit_spec, C47_case_search.
  - apply A. intros p. apply hit_spec, C47_word_search.
  - destruct (any_hit_spec (fun t p => hit (lower_word_search t p)) (fun p => exists i, word_at (lower_case key) p i) key
      (map lower_case (str_split newline true pattern))) as (b & E & Hb).
    { intros p _. apply hit_spec, lower_word_search_spec. }
    exists b. split; auto. rewrite Hb. split.
    + intros (p & Hp & H). apply in_map_iff in Hp as (l & <- & Hl). exists l. split; auto. now apply line_in.
    + intros (l & Hl & H). exists (lower_case l). split; auto. apply in_map. now apply line_in.
Qed.
(** For every database of less than 2^64 records, mode, pattern and capacity, the search gives the matching keys in the order
    in which the database visits its records, the first [capacity] of them if it is not zero.  No text is read out of bounds. *)
Theorem C47_modal : forall recs m pattern capacity, (N.of_nat (length recs) < 18446744073709551616)%N ->
  exists f, (forall k, f k = true <-> matches m pattern k) /\
  search_modal recs m pattern capacity = Some (cut capacity (filter f (map fst recs))).
Proof.
  intros recs m pattern capacity Hn.
  set (f := fun k => match matcher m pattern k with Some b => b | None => false end). exists f. split.
  - intros k. unfold f. destruct (matcher_spec m pattern k) as (b & -> & Hb). exact Hb.
  - apply search_dbm_spec; auto. intros k. unfold f. now destruct (matcher_spec m pattern k) as (b & -> & _).
Qed.
(* keys "ab", "a-B", "cb"; the lines "x", "b" in mode "casewordany" *)
Example C47_modal_case :
  search_modal [([97; 98], []); ([97; 45; 66], []); ([99; 98], [])]%N MCaseWordAny [120; 10; 10; 98]%N 0 = Some [[97; 45; 66]]%N /\
  search_modal [([97; 98], []); ([97; 45; 66], []); ([99; 98], [])]%N MEnd [98]%N 1 = Some [[97; 98]]%N.
Proof. vm_compute. auto. Qed.

(** * Edit distance *)
(** Each key with its distance. *)
Definition measured (code : bytes -> list N) (pattern : bytes) (keys : list bytes) (l : list entry) : Prop :=
  Forall2 (fun k e => snd e = k /\ exists d, fst e = Z.of_nat d /\ distance (code pattern) (code k) d) keys l.
(** Unless a table would overflow, the search ends, with the keys of least distance in the order of distance and then of key. *)
Theorem C47_edit_distance : forall code recs pattern capacity,
  (forall k, In k (map fst recs) -> N.of_nat (length (code pattern) + 1) * N.of_nat (length (code k) + 1) < 2147483648)%N ->
  exists l, measured code pattern (map fst recs) l /\
    (exists r, search_edit code recs pattern capacity r) /\
    forall r, search_edit code recs pattern capacity r ->
      exists out, r = Some (map snd out) /\ cheapest (N.to_nat (limit capacity)) l out.
Proof.
  intros code recs pattern capacity Hsize.
  assert (Hc : exists l, costs code (code pattern) (map fst recs) = Some l /\ measured code pattern (map fst recs) l).
  { induction (map fst recs) as [|k ks IH]; cbn [costs]; [exists []; split; auto; constructor|].
    destruct (C40_edit_distance (code pattern) (code k)) as (d & -> & Hd); [apply Hsize; now left|].
    destruct IH as (l & -> & Hl); [intros k' H'; apply Hsize; now right|].
    exists ((Z.of_N (N.of_nat d), k) :: l). split; auto. constructor; auto. split; auto. exists d. split; auto. cbn. lia. }
  destruct Hc as (l & El & Hl). exists l. split; auto.
  destruct (C40_topk (N.to_nat (limit capacity)) l) as (Hbad & (h & out & Ha & Hf) & Hall).
  { unfold limit. destruct (N.eqb_spec capacity 0); lia. }
  split; [exists (Some (map snd out)); eapply se_done; eauto|].
  intros r W. inversion W as [E|l' E A|l' h' out' E A F]; subst; [congruence| |]; rewrite El in E; injection E as <-; [contradiction|].
  exists out'. split; auto. eapply Hall; eauto.
Qed.
Example C47_edit_case : forall r, search_edit raw_code [([97; 98], []); ([98], []); ([98; 98; 98], [])]%N [98; 98]%N 2 r ->
  r = Some [[97; 98]; [98]]%N.
Proof.
  intros r W. destruct (C47_edit_distance raw_code [([97; 98], []); ([98], []); ([98; 98; 98], [])]%N [98; 98]%N 2%N) as (l & Hl & _ & H).
  { intros k Hk. cbn in Hk. destruct Hk as [<-|[<-|[<-|[]]]]; vm_compute; reflexivity. }
  destruct (H r W) as (out & -> & Ho). clear W H.
  assert (D : forall k d, edit_distance [98; 98]%N k = Some (N.of_nat d) -> (N.of_nat (2 + 1) * N.of_nat (length k + 1) < 2147483648)%N ->
    forall d', distance [98; 98]%N k d' -> d' = d).
  { intros k d E S d' Hd. destruct (C40_edit_distance [98; 98]%N k S) as (d2 & E2 & H2). rewrite E in E2. injection E2 as E2.
    apply Nat2N.inj in E2. subst d2. eapply distance_unique; eauto. }
  repeat match goal with H : measured _ _ _ _ |- _ => unfold measured in H; cbn [map fst] in H | H : Forall2 _ (_ :: _) _ |- _ => inversion H; subst; clear H | H : Forall2 _ [] _ |- _ => inversion H; subst; clear H end.
  repeat match goal with H : snd ?e = _ /\ _ |- _ => destruct H as (? & ? & ? & ?); destruct e; cbn [fst snd] in *; subst end.
  unfold raw_code in *.
  repeat match goal with H : distance _ ?k ?x |- _ => pose proof (D k 1 eq_refl eq_refl x H); clear H; subst x end.
  assert (C : cheapest 2 [(1, [97; 98]%N); (1, [98]%N); (1, [98; 98; 98]%N)]%Z [(1, [97; 98]%N); (1, [98]%N)]%Z).
  { split; [reflexivity|]. split.
    - constructor; [repeat constructor|]. constructor; [|constructor]. right. split; [reflexivity|discriminate].
    - exists [(1, [98; 98; 98]%N)]%Z. split; [apply Permutation.Permutation_refl|].
      intros x y [<-|[<-|[]]] [<-|[]]; right; (split; [reflexivity|discriminate]). }
  now rewrite (C40_cheapest_unique _ _ _ _ Ho C).
Qed.

(** * Ordered databases *)
(** SearchDBMOrder appends to [matched], up to [capacity] keys in all, the keys from the pattern on in the wanted direction. *)
Definition side (cmp : bytes -> bytes -> comparison) (upper inclusive : bool) (pattern k : bytes) : bool :=
  (if upper then match cmp pattern k with Lt => true | _ => false end else match cmp k pattern with Lt => true | _ => false end) ||
  (inclusive && match cmp pattern k with Eq => true | _ => false end).
Definition total_preorder (cmp : bytes -> bytes -> comparison) : Prop :=
  (forall a b, cmp b a = CompOpp (cmp a b)) /\ (forall a b c, cmp a b <> Gt -> cmp b c <> Gt -> cmp a c <> Gt).
Theorem C47_order : forall cmp L pattern upper inclusive capacity matched cd out, total_preorder cmp -> ascending cmp L ->
  search_order cmp L pattern upper inclusive capacity matched cd out ->
  cd = SUCCESS /\
  out = matched ++ firstn (N.to_nat capacity - length matched)
    (let ks := filter (side cmp upper inclusive pattern) (map fst L) in if upper then ks else rev ks).
Proof.
  intros cmp L pattern upper incl cap matched cd out [Ho Ht] Hs W.
  destruct (search_order_spec cmp Ho Ht L pattern upper incl cap matched cd out Hs W) as [-> ->]. split; auto. do 2 f_equal. cbv zeta.
  assert (E : filter (side cmp upper incl pattern) (map fst L) = map fst (filter (beyond cmp upper incl pattern) L)).
  { clear - Ho. induction L as [|[k v] L IH]; cbn [map filter fst]; auto.
    assert (side cmp upper incl pattern k = beyond cmp upper incl pattern (k, v)) as ->.
    { unfold side, beyond. cbn [fst]. rewrite (Ho pattern k). destruct upper, incl, (cmp pattern k); reflexivity. }
    destruct (beyond cmp upper incl pattern (k, v)); cbn; now rewrite IH. }
  now rewrite E.
Qed.
(** The search always ends. *)
Lemma order_runs cmp upper cap : total_preorder cmp -> forall n o m, (N.to_nat cap - length m) <= n -> exists cd out, order_loop cmp upper cap o m cd out.
Proof.
  intros [Ho Ht]. induction n as [|n IH]; intros o m Hn; (destruct (N.leb_spec cap (N.of_nat (length m))); [do 2 eexists; now apply ol_full|]).
  - lia.
  - destruct (o_pos o 0) as [k|] eqn:P.
    + destruct (o_ge cmp k (o_recs o)) as [[k1 v1]|] eqn:G.
      * set (pr := o_process cmp (o_recs o) k1 get_key false []).
        set (o1 := mkO (fst pr) (fun i => if i =? 0 then Some k1 else o_pos o i)).
        assert (W1 : ostep cmp bytes (KItProcess 0 get_key false) o [] SUCCESS o1 (snd pr)).
        { cbn [ostep]. rewrite P, G. split; [intros i; reflexivity|]. auto. }
        set (mv := if upper then o_gt cmp k1 (o_recs o1) else o_lt cmp k1 (o_recs o1)).
        set (o2 := mkO (o_recs o1) (fun i => if i =? 0 then at_key mv else o_pos o1 i)).
        assert (W2 : ostep cmp bytes (if upper then KItNext 0 else KItPrev 0) o1 [] SUCCESS o2 []).
        { unfold o2, mv. destruct upper; cbn [ostep o_recs o_pos].
          - replace (o_pos o1 0) with (Some k1) by reflexivity. do 3 (split; [reflexivity|]). intros i. reflexivity.
          - replace (o_pos o1 0) with (Some k1) by reflexivity. do 3 (split; [reflexivity|]). exists (o_lt cmp k1 (o_recs o1)).
            split; [intros i; reflexivity|]. split; auto. intros k' v' E. apply find_some in E as [E1 E2]. split; [now apply in_rev|].
            unfold less in E2. cbn [fst] in E2. destruct (cmp k' k1); congruence. }
        destruct (IH o2 (m ++ [snd pr])) as (cd & out & W); [rewrite app_length; cbn; lia|].
        exists cd, out. eapply ol_next; eauto.
      * exists SUCCESS, m. apply ol_end with (o1 := mkO (o_recs o) (fun i => if i =? 0 then None else o_pos o i)) (key := []); auto.
        cbn [ostep]. rewrite P, G. split; [intros i; reflexivity|auto].
    + exists SUCCESS, m. apply ol_end with (o1 := o) (key := []); auto. cbn [ostep]. rewrite P. repeat split.
Qed.
Theorem C47_order_ends : forall cmp L pattern upper inclusive capacity matched, total_preorder cmp ->
  exists cd out, search_order cmp L pattern upper inclusive capacity matched cd out.
Proof.
  intros cmp L pattern upper incl cap matched Hc.
  set (r := if upper then (if incl then o_ge cmp pattern L else o_gt cmp pattern L) else (if incl then o_le cmp pattern L else o_lt cmp pattern L)).
  set (o1 := mkO L (fun i => if i =? 0 then at_key r else None)).
  destruct (order_runs cmp upper cap Hc (N.to_nat cap) o1 matched) as (cd & out & W); [lia|].
  exists cd, out. apply so_run with (o1 := o1) (key := []); auto.
  unfold o1, r. destruct upper; cbn [ostep]; repeat split; intros i; reflexivity.
Qed.
(** The header says that a capacity of zero means no limit (tkrzw_dbm_common_impl.h:110); it gives nothing. *)
Theorem C47_order_capacity_zero_refuted : forall cmp L pattern upper inclusive cd out, total_preorder cmp -> ascending cmp L ->
  search_order cmp L pattern upper inclusive 0 [] cd out -> out = [].
Proof. intros cmp L pattern upper incl cd out Hc Hs W. now destruct (C47_order _ _ _ _ _ _ _ _ _ Hc Hs W) as [_ ->]. Qed.
Lemma bcmp_total_preorder : total_preorder bcmp.
Proof. split; [intros a b; apply bcmp_opp|exact bcmp_le_trans]. Qed.
Definition L0 : omap := [([97], [1]); ([98], [2]); ([98; 99], [3]); ([100], [4])]%N.
Lemma L0_sorted : ascending bcmp L0.
Proof. repeat constructor. Qed.
Example C47_order_case : forall cd out, search_order bcmp L0 [98]%N false true 5 [] cd out -> out = [[98]; [97]]%N.
Proof. intros cd out W. now destruct (C47_order _ _ _ _ _ _ _ _ _ bcmp_total_preorder L0_sorted W) as [_ ->]. Qed.

(** SearchDBMForwardMatch on a database in the order of the keys gives the keys that begin with the pattern. *)
Theorem C47_forward_match : forall L pattern capacity cd out, ascending bcmp L -> (N.of_nat (length L) < 18446744073709551616)%N ->
  search_forward bcmp L pattern capacity cd out ->
  exists f, (forall k, f k = true <-> exists s, k = pattern ++ s) /\ cd = SUCCESS /\ out = cut capacity (filter f (map fst L)).
Proof.
  intros L pattern cap cd out Hs Hn W. exists (fun k => begins_with k pattern). split; [intros k; apply begins_spec|].
  now apply search_forward_spec.
Qed.
Example C47_forward_case : forall cd out, search_forward bcmp L0 [98]%N 0 cd out -> out = [[98]; [98; 99]]%N.
Proof.
  intros cd out W. destruct (C47_forward_match _ _ _ _ _ L0_sorted ltac:(vm_compute; reflexivity) W) as (f & Hf & _ & ->).
  cbn [map fst L0 filter]. unfold cut. cbn [N.eqb].
  assert (f [97]%N = false) as -> by (destruct (f [97]%N) eqn:E; auto; apply Hf in E as [s E]; discriminate).
  assert (f [100]%N = false) as -> by (destruct (f [100]%N) eqn:E; auto; apply Hf in E as [s E]; discriminate).
  rewrite (proj2 (Hf [98]%N)) by (now exists []). rewrite (proj2 (Hf [98; 99]%N)) by (now exists [99%N]). reflexivity.
Qed.
(** With another order of the keys it does not: here lengths are compared first, so that the search stops at "d". *)
Definition short_first (a b : bytes) : comparison := match Nat.compare (length a) (length b) with Eq => bcmp a b | c => c end.
Theorem C47_forward_match_other_order_refuted : ascending short_first [([98], []); ([100], []); ([98; 99], [])]%N /\
  (exists s, [98; 99] = [98] ++ s)%N /\
  search_forward short_first [([98], []); ([100], []); ([98; 99], [])]%N [98]%N 0 SUCCESS [[98]%N].
Proof.
  split; [repeat constructor|]. split; [now exists [99%N]|].
  set (L := [([98], []); ([100], []); ([98; 99], [])]%N).
  set (at_ := fun k => mkO L (fun i => if i =? 0 then Some k else None)).
  apply sf_run with (o1 := at_ [98]%N) (key := []).
  { cbn [ostep]. repeat split; intros i; reflexivity. }
  apply fl_next with (o1 := at_ [98]%N) (key := [98]%N) (cd1 := SUCCESS) (o2 := at_ [100]%N) (key2 := []).
  - vm_compute. reflexivity.
  - cbn. repeat split; intros [|i]; reflexivity.
  - reflexivity.
  - cbn. repeat split; intros [|i]; reflexivity.
  - apply fl_other with (o1 := at_ [100]%N) (key := [100]%N).
    + vm_compute. reflexivity.
    + cbn. repeat split; intros [|i]; reflexivity.
    + reflexivity.
Qed.

Print Assumptions C47_word_search.
Print Assumptions C47_case_search.
Print Assumptions C47_case_word_search.
Print Assumptions C47_modal.
Print Assumptions C47_edit_distance.
Print Assumptions C47_order.
Print Assumptions C47_order_ends.
Print Assumptions C47_order_capacity_zero_refuted.
Print Assumptions C47_forward_match.
Print Assumptions C47_forward_match_other_order_refuted.
