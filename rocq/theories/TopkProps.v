(** C40: the top-k heap keeps the cheapest entries and EditDistanceLev is the Levenshtein distance.
    Source: /repo/tkrzw_containers.h:877-904, /repo/tkrzw_str_util.h:769-797. *)
From Coq Require Import List ZArith NArith Bool Lia Permutation Sorted.
Import ListNotations.
From Verif Require Import Bytes BytesOrder TopkModel TopkProofs.
Local Open Scope nat_scope.

(** * Specification *)
(** Entries are ordered by cost, then by payload. *)
Definition entry_le (x y : entry) : Prop := (fst x < fst y)%Z \/ (fst x = fst y /\ bcmp (snd x) (snd y) <> Gt).
(** The k cheapest entries of a list, cheapest first: as many as there are up to k, in order, and none that was left
    out is cheaper. *)
Definition cheapest (k : nat) (l out : list entry) : Prop :=
  length out = Nat.min k (length l) /\ StronglySorted entry_le out /\
  exists rest, Permutation l (out ++ rest) /\ forall x y, In x out -> In y rest -> entry_le x y.
(** The distance of two sequences is [TopkProofs.distance]: the least number of single insertions, deletions and
    substitutions ([edit1]) that turn the one into the other. *)

Lemma entry_le_ele x y : entry_le x y <-> ele x y.
Proof.
  unfold entry_le, ele, ecmp. destruct (Z.compare_spec (fst x) (fst y)) as [E|H|H].
  - split; [intros [H|[_ H]]; [lia|exact H]|auto].
  - split; [discriminate|auto].
  - split; [intros [H'|[H' _]]; lia|congruence].
Qed.
Lemma sorted_iff {T} (R R' : T -> T -> Prop) l : (forall x y, R x y <-> R' x y) -> StronglySorted R l -> StronglySorted R' l.
Proof.
  intros H. induction 1 as [|x l Hl IH Hx]; constructor; auto. eapply Forall_impl; [|exact Hx]. intros y. apply H.
Qed.
(** The k cheapest are determined. *)
Theorem C40_cheapest_unique : forall k l o1 o2, cheapest k l o1 -> cheapest k l o2 -> o1 = o2.
Proof.
  intros k l o1 o2 (L1 & S1 & r1 & P1 & B1) (L2 & S2 & r2 & P2 & B2).
  apply (sorted_iff _ ele) in S1; [|apply entry_le_ele]. apply (sorted_iff _ ele) in S2; [|apply entry_le_ele].
  assert (B1' : forall x y, In x o1 -> In y r1 -> ele x y) by (intros; apply entry_le_ele; auto).
  assert (B2' : forall x y, In x o2 -> In y r2 -> ele x y) by (intros; apply entry_le_ele; auto).
  assert (P : Permutation (o1 ++ r1) (o2 ++ r2)) by (now rewrite <- P1). rewrite <- L1 in L2.
  clear - S1 S2 B1' B2' P L2. rename L2 into L. revert o2 r2 S2 B2' P L.
  induction S1 as [|x o1 S1 IH Hx]; intros o2 r2 S2 B2 P L; [destruct o2; [reflexivity|discriminate]|].
  destruct o2 as [|y o2]; [discriminate|]. inversion S2 as [|? ? S2' Hy]; subst. rewrite Forall_forall in Hx, Hy.
  assert (M1 : forall z, In z (x :: o1 ++ r1) -> ele x z).
  { intros z [<-|Hz]; [apply ele_refl|]. apply in_app_or in Hz as [Hz|Hz]; auto. apply B1'; auto. now left. }
  assert (M2 : forall z, In z (y :: o2 ++ r2) -> ele y z).
  { intros z [<-|Hz]; [apply ele_refl|]. apply in_app_or in Hz as [Hz|Hz]; auto. apply B2; auto. now left. }
  assert (x = y) as ->.
  { apply ele_antisym.
    - apply M1. apply (Permutation_in _ (Permutation_sym P)). now left.
    - apply M2. apply (Permutation_in _ P). now left. }
  f_equal. apply IH with (r2 := r2).
  - intros a b Ha Hb. apply B1'; auto. now right.
  - exact S2'.
  - intros a b Ha Hb. apply B2; auto. now right.
  - cbn in P. now apply Permutation_cons_inv in P.
  - cbn in L. lia.
Qed.

(** For a capacity that is not zero, whatever heaps the standard library makes: adding any sequence of entries to an
    empty vector succeeds, and HeapByCostFinish leaves its k cheapest entries in order. *)
Theorem C40_topk : forall k l, 0 < k ->
  ~ adds k [] l None /\
  (exists h out, adds k [] l (Some h) /\ finish h [] out) /\
  forall h out, adds k [] l (Some h) -> finish h [] out -> cheapest k l out.
Proof.
  intros k l Hk. split; [apply (adds_total k l Hk [])|]. split.
  - destruct (proj2 (adds_total k l Hk [])) as [h Hh].
    pose proof (adds_kept k l [] [] h (kept_nil k) Hh) as (Hp & _). destruct (finish_total _ h [] eq_refl Hp) as [out Ho].
    exists h, out. auto.
  - intros h out Ha Hf. destruct (adds_kept k l [] [] h (kept_nil k) Ha) as (Hp & Hl & rest & P & B). cbn [app] in *.
    destruct (finish_sorts h [] out Hf Hp) as [S1 P1]; [constructor|intros ? ? ? []|]. rewrite app_nil_r in P1.
    split; [now rewrite <- (Permutation_length P1)|]. split; [eapply sorted_iff; [|exact S1]; intros; symmetry; apply entry_le_ele|].
    exists rest. split; [now rewrite <- P1|]. intros x y Hx Hy. apply entry_le_ele, B; auto.
    now apply (Permutation_in _ (Permutation_sym P1)).
Qed.
(** With capacity zero the first entry reads the front of an empty vector. *)
Theorem C40_capacity_zero_refuted : forall x l, adds 0 [] (x :: l) None.
Proof. intros x l. apply adds_bad, add_bad; [cbn; lia|reflexivity]. Qed.
(* adding (3,"c") (1,"b") (2,"a") (1,"a") with capacity 2 *)
Example C40_topk_case : cheapest 2 [(3, [99]%N); (1, [98]%N); (2, [97]%N); (1, [97]%N)]%Z [(1, [97]%N); (1, [98]%N)]%Z.
Proof.
  split; [reflexivity|]. split.
  - constructor; [repeat constructor|]. constructor; [|constructor]. right. split; [reflexivity|discriminate].
  - exists [(2, [97]%N); (3, [99]%N)]%Z. split.
    + apply (perm_trans (l' := [(1, [98]%N); (3, [99]%N); (2, [97]%N); (1, [97]%N)]%Z)); [apply perm_swap|].
      apply Permutation_sym. apply (perm_trans (l' := [(1, [98]%N); (1, [97]%N); (2, [97]%N); (3, [99]%N)]%Z)); [apply perm_swap|].
      apply perm_skip, Permutation_rev.
    + intros x y [<-|[<-|[]]] [<-|[<-|[]]]; left; cbn; lia.
Qed.

(** EditDistanceLev is the least number of edits, for sequences whose table has fewer than 2^31 cells. *)
Theorem C40_edit_distance : forall a b,
  (N.of_nat (length a + 1) * N.of_nat (length b + 1) < 2147483648)%N ->
  exists d, edit_distance a b = Some (N.of_nat d) /\ distance a b d.
Proof. intros a b H. exists (lev a b (length a) (length b)). split; [now apply edit_distance_lev|apply lev_distance]. Qed.
(** Larger ones overflow int32_t. *)
Theorem C40_edit_distance_overflow_refuted : forall a b,
  (2147483648 <= N.of_nat (length a + 1) * N.of_nat (length b + 1))%N -> edit_distance a b = None.
Proof. intros a b H. unfold edit_distance. now rewrite (proj2 (N.ltb_ge _ _) H). Qed.
(** It is a metric. *)
Theorem C40_metric : forall a b c dab dba dac dbc dcc,
  distance a b dab -> distance b a dba -> distance a c dac -> distance b c dbc -> distance c c dcc ->
  dab = dba /\ dcc = 0 /\ (dab = 0 <-> a = b) /\ dac <= dab + dbc /\ dab <= Nat.max (length a) (length b).
Proof.
  intros a b c dab dba dac dbc dcc [E1 L1] [E2 L2] [E3 L3] [E4 L4] [E5 L5]. repeat split.
  - pose proof (L1 _ (edits_sym _ _ _ E2)). pose proof (L2 _ (edits_sym _ _ _ E1)). lia.
  - specialize (L5 0 (edits_0 c)). lia.
  - intros ->. inversion E1; auto.
  - intros ->. specialize (L1 0 (edits_0 b)). lia.
  - apply L3. eapply edits_app; eauto.
  - assert (G : align a b (Nat.max (length a) (length b))).
    { clear. revert b; induction a as [|x a IH]; intros b.
      - cbn. induction b as [|y b IHb]; [constructor|]. cbn. constructor. exact IHb.
      - destruct b as [|y b]; cbn [length Nat.max].
        + constructor. specialize (IH []). now rewrite Nat.max_0_r in IH.
        + apply align_le with (df x y + Nat.max (length a) (length b)); [eapply al_sub; [apply IH|reflexivity]|].
          unfold df. destruct (x =? y)%N; lia. }
    destruct (align_edits _ _ _ G) as (m & Hm & E). specialize (L1 m E). lia.
Qed.
(* "kitten" and "sitting" *)
Example C40_edit_case : edit_distance [107; 105; 116; 116; 101; 110]%N [115; 105; 116; 116; 105; 110; 103]%N = Some 3%N.
Proof. reflexivity. Qed.

Print Assumptions C40_cheapest_unique.
Print Assumptions C40_topk.
Print Assumptions C40_capacity_zero_refuted.
Print Assumptions C40_edit_distance.
Print Assumptions C40_edit_distance_overflow_refuted.
Print Assumptions C40_metric.
