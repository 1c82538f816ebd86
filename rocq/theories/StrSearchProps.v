(** C28: the string search functions find what they should.
    Source: /repo/tkrzw_str_util.cc:856-1311. *)
From Coq Require Import Sorted.
From Verif Require Import Bytes StrSearchModel StrSearchProofs.
Local Open Scope nat_scope.

(** * Specification *)
(** The pattern occurs in the text at index i. *)
Definition occurs_at (t p : bytes) (i : nat) : Prop := exists a b, t = a ++ p ++ b /\ length a = i.
(** The result of a search for one occurrence; None stands for -1. *)
Definition is_first (t p : bytes) (r : option nat) : Prop :=
  match r with
  | Some i => occurs_at t p i /\ forall j, j < i -> ~ occurs_at t p j
  | None => forall j, ~ occurs_at t p j
  end.
(** The result of a search for many: in order, the first [max] occurrences that
    begin inside the text, or all of them if max is 0. *)
Definition is_whole (t p : bytes) (max : nat) (l : list nat) : Prop :=
  exists more, StronglySorted lt (l ++ more) /\
    (forall i, In i (l ++ more) <-> i < length t /\ occurs_at t p i) /\
    (max = 0 -> more = []) /\
    (0 < max -> length l <= max /\ (length l < max -> more = [])).

Lemma occurs_mt t p i : occurs_at t p i <-> mt t p i /\ i + length p <= length t.
Proof.
  split.
  - intros (a & b & -> & <-). split; [apply mt_app|]. rewrite !app_length. lia.
  - intros [M B]. destruct (mt_split t p i M ltac:(lia)) as [b Hb]. exists (firstn i t), b.
    split; [exact Hb|]. rewrite firstn_length. lia.
Qed.
Lemma first_is_first t p r : first_spec t p r -> (p = [] -> r <> None) -> is_first t p r.
Proof.
  intros H Hp. destruct r as [i|]; cbn in *.
  - destruct H as [H1 H2]. destruct p as [|c p].
    + assert (i = 0) as ->.
      { destruct i; [reflexivity|]. exfalso. apply (H2 0); [lia|]. intros [|k] d Hd; discriminate. }
      split; [exists [], t; auto|intros; lia].
    + split.
      * apply occurs_mt. split; [exact H1|]. apply mt_bound; [discriminate|exact H1].
      * intros j Hj Ho. apply occurs_mt in Ho. apply (H2 j Hj). tauto.
  - intros j Ho. apply occurs_mt in Ho. apply (H j). tauto.
Qed.
Lemma first_is_first' t p r : first_spec t p r -> is_first t p r.
Proof.
  intros H. apply first_is_first; [exact H|]. intros -> ->. cbn in H. apply (H 0). split; [|cbn; lia].
  intros [|k] d Hd; discriminate.
Qed.
Lemma seq_sorted n : forall s, StronglySorted lt (seq s n).
Proof.
  induction n as [|n IH]; intros s; cbn [seq]; constructor; [apply IH|].
  apply Forall_forall. intros x Hx. apply in_seq in Hx. lia.
Qed.
Lemma filter_sorted f l : StronglySorted lt l -> StronglySorted lt (filter f l).
Proof.
  induction 1 as [|x l H IH F]; cbn [filter]; [constructor|]. destruct (f x); [|exact IH].
  constructor; [exact IH|]. apply Forall_forall. intros y Hy. apply filter_In in Hy.
  rewrite Forall_forall in F. apply F. tauto.
Qed.
Lemma lim_is_whole t p max : is_whole t p max (lim max (occ_below t p (length t))).
Proof.
  set (all := occ_below t p (length t)). exists (if 0 <? max then skipn max all else []).
  assert (E : lim max all ++ (if 0 <? max then skipn max all else []) = all).
  { unfold lim. destruct (0 <? max); [apply firstn_skipn|apply app_nil_r]. }
  rewrite E. split; [apply filter_sorted, seq_sorted|]. split.
  - intros i. unfold all, occ_below. rewrite filter_In, in_seq, match_spec, occurs_mt. split.
    + intros [H1 H2]. split; [lia|]. split; [exact H2|]. destruct p as [|c p]; [cbn; lia|].
      apply mt_bound; [discriminate|exact H2].
    + intros [H1 [H2 H3]]. split; [lia|exact H2].
  - split; [intros ->; reflexivity|]. intros Hm. unfold lim. rewrite (proj2 (Nat.ltb_lt 0 max) Hm).
    rewrite firstn_length. split; [lia|]. intros L. apply skipn_all2. lia.
Qed.

(** * Theorems *)
(** StrSearch, StrSearchDoubleLoop, StrSearchMemchr, StrSearchKMP and
    StrSearchRK give the index of the first occurrence of any pattern in any text. *)
Theorem C28_first : forall t p,
  is_first t p (search t p) /\ is_first t p (search_double t p) /\ is_first t p (search_memchr t p) /\
  is_first t p (search_kmp t p) /\ is_first t p (search_rk t p).
Proof.
  intros t p. split; [apply first_is_first', search_spec|]. split; [apply first_is_first', search_double_spec|].
  split; [apply first_is_first', search_memchr_spec|]. split; [apply first_is_first', search_kmp_spec|].
  apply first_is_first', search_rk_spec.
Qed.
(** StrSearchBM does if neither string has the byte 255. *)
Theorem C28_first_BM_partial : forall t p, ~ In 255%N t -> ~ In 255%N p ->
  Forall (fun c => (c < 256)%N) t -> Forall (fun c => (c < 256)%N) p ->
  exists r, search_bm t p = Some r /\ is_first t p r.
Proof.
  assert (Q : forall s, ~ In 255%N s -> Forall (fun c => (c < 256)%N) s -> no255 s).
  { intros s H F. apply Forall_forall. intros c Hc. rewrite Forall_forall in F. specialize (F c Hc).
    assert (c <> 255%N) by (intros ->; contradiction). lia. }
  intros t p H1 H2 F1 F2. destruct (search_bm_spec t p (Q t H1 F1) (Q p H2 F2)) as (r & E & H).
  exists r. split; [exact E|]. apply first_is_first', H.
Qed.
(** Missing in it: the table has 255 entries, so that the byte 255 reads or
    writes outside of it; any pattern having that byte does. *)
Theorem C28_BM_byte_255_refuted : forall t a b, Forall (fun c => (c < 255)%N) a ->
  search_bm t (a ++ [255%N] ++ b) = None.
Proof.
  intros t a b Ha. unfold search_bm. destruct (a ++ [255%N] ++ b) as [|x l] eqn:E; [destruct a; discriminate|].
  rewrite <- E. clear x l E. unfold whole_bm. destruct (a ++ [255%N] ++ b) as [|x l] eqn:E; [destruct a; discriminate|].
  rewrite <- E. clear x l E. unfold bm_table.
  assert (G : forall a tbl n, length tbl = 255 -> Forall (fun c => (c < 255)%N) a -> bm_fill (a ++ [255%N] ++ b) n tbl = None).
  { clear. induction a as [|c a IH]; intros tbl n L F; cbn [app bm_fill].
    - assert (N0 : forall (l : list nat) k x, length l <= k -> set_nth k x l = None).
      { induction l as [|y l IH]; intros [|k] x Hk; cbn in *; try reflexivity; [lia|]. rewrite IH by lia. reflexivity. }
      rewrite N0; [reflexivity|]. change (N.to_nat 255) with 255. lia.
    - inversion F as [|? ? F1 F2]; subst.
      destruct (set_nth_spec (n - 1) tbl (N.to_nat c) ltac:(lia)) as (l' & -> & L' & _). apply IH; [lia|exact F2]. }
  rewrite G; [reflexivity|apply repeat_length|exact Ha].
Qed.
(** StrSearchZ finds the first occurrence not followed by a NUL... *)
Theorem C28_first_Z_exact : forall t p,
  match search_z t p with
  | Some i => occurs_at t p i /\ nth_error t (i + length p) <> Some 0%N /\
              forall j, j < i -> occurs_at t p j -> nth_error t (j + length p) = Some 0%N
  | None => forall j, j < length t -> occurs_at t p j -> nth_error t (j + length p) = Some 0%N
  end.
Proof.
  assert (D : forall t i, nth_error t i = Some 0%N \/ nth_error t i <> Some 0%N).
  { intros t i. destruct (nth_error t i) as [c|]; [|right; discriminate].
    destruct (N.eq_dec c 0); [left; congruence|right; congruence]. }
  intros t p. pose proof (search_z_exact t p) as H. destruct (search_z t p) as [i|].
  - destruct H as (H1 & [H2 H2'] & H3). split.
    + apply occurs_mt. split; [exact H2|]. destruct p as [|c p]; [cbn; lia|]. apply mt_bound; [discriminate|exact H2].
    + split; [exact H2'|]. intros j Hj Ho. apply occurs_mt in Ho.
      destruct (D t (j + length p)) as [Y|N0]; [exact Y|]. exfalso. apply (H3 j Hj). split; [apply Ho|exact N0].
  - intros j Hj Ho. apply occurs_mt in Ho.
    destruct (D t (j + length p)) as [Y|N0]; [exact Y|]. exfalso. apply (H j Hj). split; [apply Ho|exact N0].
Qed.
(** ... so it agrees with the others for a text without NUL. *)
Theorem C28_first_Z_partial : forall t p, ~ In 0%N t -> t <> [] \/ p <> [] -> is_first t p (search_z t p).
Proof. intros t p H1 H2. apply first_is_first', search_z_spec; assumption. Qed.
(** Missing in it: "a" is in "a\0" at 0 but is not found, and the empty pattern
    is not found in the empty text where the other functions give 0. *)
Theorem C28_Z_NUL_refuted :
  ~ is_first [97%N; 0%N] [97%N] (search_z [97%N; 0%N] [97%N]) /\ ~ is_first [] [] (search_z [] []).
Proof.
  split.
  - replace (search_z [97%N; 0%N] [97%N]) with (@None nat) by (vm_compute; reflexivity).
    intros H. apply (H 0). exists [], [0%N]. auto.
  - replace (search_z [] []) with (@None nat) by (vm_compute; reflexivity).
    intros H. apply (H 0). exists [], []. auto.
Qed.
(** StrSearchWhole, StrSearchWholeKMP and StrSearchWholeRK give the first
    max_results occurrences, in order. *)
Theorem C28_whole : forall t p max,
  exists l, is_whole t p max l /\ whole t p max = SHits l /\ whole_kmp t p max = SHits l /\ whole_rk t p max = SHits l.
Proof.
  intros t p max. eexists. split; [apply lim_is_whole|].
  split; [apply whole_spec|split; [apply whole_kmp_spec|apply whole_rk_spec]].
Qed.
(** StrSearchWholeBM does without byte 255. *)
Theorem C28_whole_BM_partial : forall t p max, Forall (fun c => (c < 255)%N) t -> Forall (fun c => (c < 255)%N) p ->
  exists l, is_whole t p max l /\ whole_bm t p max = SHits l.
Proof.
  intros t p max Ht Hp. eexists. split; [apply lim_is_whole|]. apply whole_bm_spec; assumption.
Qed.
(** The lists of the batch functions are those of the whole searches... *)
Theorem C28_batch : forall t ps max,
  batch whole_kmp t ps max = batch whole t ps max /\
  (Forall (fun p => p <> []) ps -> map (fun p => batch_rk_one t p max) ps = batch whole t ps max) /\
  Forall2 (fun p r => exists l, r = SHits l /\ is_whole t p max l) ps (batch whole t ps max).
Proof.
  intros t ps max. unfold batch. split; [|split].
  - apply map_ext. intros p. rewrite whole_kmp_spec, whole_spec. reflexivity.
  - intros F. apply map_ext_in. intros p Hp. rewrite Forall_forall in F.
    rewrite batch_rk_nonempty, whole_rk_spec, whole_spec by (apply F, Hp). reflexivity.
  - induction ps as [|p ps IH]; cbn [map]; constructor; [|exact IH].
    eexists. split; [apply whole_spec|apply lim_is_whole].
Qed.
(** ... but StrSearchBatchRK does not limit the results of an empty pattern. *)
Theorem C28_batch_RK_empty_refuted : forall t max, 0 < max < length t ->
  batch_rk_one t [] max <> whole t [] max /\ forall l, batch_rk_one t [] max = SHits l -> ~ is_whole t [] max l.
Proof.
  intros t max H. split.
  - unfold batch_rk_one, whole, empty_hits. intros E. injection E as E.
    apply (f_equal (@length nat)) in E. rewrite !seq_length in E.
    rewrite (proj2 (Nat.ltb_lt 0 max)) in E by lia. lia.
  - intros l E. injection E as <-. intros (more & _ & _ & _ & W). destruct (W ltac:(lia)) as [W1 _].
    rewrite seq_length in W1. lia.
Qed.

(** Concrete cases: "aab" in "aaabaab", with overlaps. *)
Example C28_case :
  let t := [97; 97; 97; 98; 97; 97; 98]%N in let p := [97; 97; 98]%N in
  search_kmp t p = Some 1 /\ search_bm t p = Some (Some 1) /\ search_rk t p = Some 1 /\ search_z t p = Some 1 /\
  whole_bm t p 0 = SHits [1; 4] /\ whole_kmp t [97; 97]%N 2 = SHits [0; 1] /\ whole_rk t [97; 97]%N 0 = SHits [0; 1; 4].
Proof. vm_compute. repeat split. Qed.
Example C28_case_absent : search_bm [97; 97; 97]%N [98; 97]%N = Some None /\ search_z [97]%N [98]%N = None.
Proof. vm_compute. split; reflexivity. Qed.

Print Assumptions C28_first.
Print Assumptions C28_first_BM_partial.
Print Assumptions C28_BM_byte_255_refuted.
Print Assumptions C28_first_Z_exact.
Print Assumptions C28_first_Z_partial.
Print Assumptions C28_Z_NUL_refuted.
Print Assumptions C28_whole.
Print Assumptions C28_whole_BM_partial.
Print Assumptions C28_batch.
Print Assumptions C28_batch_RK_empty_refuted.
