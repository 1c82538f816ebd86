(** C49: the skip database over any number of sessions, crashes and truncated files. *)
From Coq Require Import List NArith ZArith Bool Lia Arith.
Import ListNotations.
From Verif Require Import Bytes BytesOrder CodecModel CodecProofs StatusModel FlatModel DbmModel SkipModel SkipLayout SkipIter SkipSync SkipDb SkipProps SkipMetaModel SkipMetaSpec SkipMetaProofs SkipMetaSteps.
Open Scope N_scope.

(** Any history of calls from the creation of the file on: updates, synchronizations, clearing, rebuilding with any parameters, the type and the opaque
    metadata, closing and opening again in any way, being killed between two calls (with zeros that the file got at its end), and losing any part of the file
    after its metadata.  Every call answers as the specification says; nothing is undefined. *)
Theorem C49_skip_sessions_partial : forall ver t tn os, ver_ok (fst ver) (snd ver) -> mops_ok os (spec_new tn) ->
  exists m', run ver t tn os = SOk (fst (spec_mops os (spec_new tn)), m').
Proof.
  intros ver t tn os V OK. destruct (open_new (restore ver) ver t tn V) as (m & E & R). destruct (mops_step ver os V m _ R OK) as (m' & E' & _). exists m'. unfold run, m_open. rewrite E. exact E'.
Qed.

(** The same, for what the specification says after each kind of end; stated for all states that a history leads to.  Close and Open: all records, nothing
    else, the same type and opaque metadata, whatever the tuning parameters are. *)
Theorem C49_reopen : forall s t1 t2 w tn, s_w s = true -> s_h s = true -> s_flag s = true ->
  let s' := snd (spec_mop (MReopen t1 t2 w tn) s) in
  x_old (s_x s') = merged None (all_events (s_x s)) /\ x_pend (s_x s') = [] /\ s_h s' = true /\ s_a s' = false /\ s_type s' = s_type s /\ s_opaque s' = firstn 64 (s_opaque s ++ repeat 0 64) /\ g_sp (s_g s') = g_sp (s_g s).
Proof. intros s t1 t2 w tn W H F. cbn [spec_mop snd]. rewrite W, H. cbn [andb]. unfold spec_open. cbn [k_flag k_p k_recs k_type k_opaque]. rewrite F. cbn. rewrite !andb_false_r. auto 10. Qed.
(** Killed: what the last synchronization, opening, clearing or rebuilding left, exactly; restored automatically if it is opened for writing, and otherwise not
    healthy. *)
Fixpoint quiet_ops (os : list mop) : Prop :=
  match os with [] => True | o :: os' => match o with MDo _ (OSync _) | MClear _ | MRebuild _ _ _ _ | MReopen _ _ _ _ | MCrash _ _ _ _ | MTorn _ _ _ => False | _ => True end /\ quiet_ops os' end.
Theorem C49_crash : forall s t red os t2 pad w tn, s_w s = true -> s_h s = true -> quiet_ops os -> t_mode tn <> RReadOnly ->
  let s1 := snd (spec_mop (MDo t (OSync red)) s) in
  let s2 := snd (spec_mop (MCrash t2 pad w tn) (snd (spec_mops os s1))) in
  x_old (s_x s2) = merged red (all_events (s_x s)) /\ x_pend (s_x s2) = [] /\ s_a s2 = w /\ s_h s2 = w.
Proof.
  intros s t red os t2 pad w tn W H Q M s1 s2.
  assert (D : forall os x, quiet_ops os -> s_disk (snd (spec_mops os x)) = s_disk x).
  { clear. induction os as [|o os IH]; intros x Q; [reflexivity|]. cbn [quiet_ops] in Q. destruct Q as [Q1 Q2]. cbn [spec_mops]. destruct (spec_mop o x) as [r x1] eqn:E.
    assert (E1 : x1 = snd (spec_mop o x)) by (rewrite E; reflexivity). destruct (spec_mops os x1) as [rs x2] eqn:E2. cbn [snd]. assert (IH' := IH x1 Q2). rewrite E2 in IH'. cbn [snd] in IH'. rewrite IH', E1. clear - Q1.
    destruct o as [t o|t|t a b c|n|b| |t1 t2 w tn|t pad w tn|t n tn]; cbn [spec_mop] in *; try contradiction; try reflexivity; try (destruct (s_w x); reflexivity).
    destruct (is_update o && negb (s_w x && s_h x)); [reflexivity|]. destruct (spec_op (g_inorder (s_g x)) o (s_x x)) as [r y]. cbn [snd s_disk]. destruct o; try contradiction; reflexivity. }
  unfold s2. cbn [spec_mop snd]. rewrite D by exact Q. unfold s1. cbn [spec_mop is_update]. rewrite W, H. cbn [andb negb spec_op snd s_disk x_old]. unfold spec_open, restoring. cbn [k_flag k_recs andb negb orb].
  destruct (t_mode tn) eqn:TM; [| |contradiction|]; destruct w; cbn; auto.
Qed.
(** A truncated file: the records that are whole in what is left, in their order, and no other. *)
Theorem C49_torn : forall s t n tn, match t_mode tn with RDefault | RSync => True | _ => False end ->
  let k := s_disk s in let s' := snd (spec_mop (MTorn t n tn) s) in
  s_h s' = true /\ exists j, x_old (s_x s') = firstn j (k_recs k) /\ (forall i, (1 <= i <= length (k_recs k))%nat -> ((i <= j)%nat <-> off_of (k_p k) (k_recs k) i <= N.of_nat n)).
Proof.
  intros s t n tn M k s'. set (l := k_recs k). set (p := k_p k).
  assert (CNT : exists j, (j <= length l)%nat /\ length (filter (fun i => off_of p l i <=? N.of_nat n) (seq 1 (length l))) = j /\ forall i, (1 <= i <= length l)%nat -> ((i <= j)%nat <-> off_of p l i <= N.of_nat n)).
  { assert (G : forall m, (m <= length l)%nat -> exists j, (j <= m)%nat /\ length (filter (fun i => off_of p l i <=? N.of_nat n) (seq 1 m)) = j /\ forall i, (1 <= i <= m)%nat -> ((i <= j)%nat <-> off_of p l i <= N.of_nat n)).
    { induction m as [|m IH]; intros L; [exists 0%nat; split; [lia|]; split; [reflexivity|]; intros; lia|]. destruct (IH ltac:(lia)) as (j & J1 & J2 & J3).
      replace (S m) with (m + 1)%nat by lia. rewrite seq_app, filter_app, app_length, J2. cbn [seq filter Nat.add]. destruct (N.leb_spec (off_of p l (S m)) (N.of_nat n)) as [Y|Y].
      - assert (j = m). { destruct (Nat.eq_dec m 0) as [->|NZ]; [lia|]. assert (Z := proj2 (J3 m ltac:(lia))). assert (X := off_le p l m (S m) ltac:(lia) L). specialize (Z ltac:(lia)). lia. } subst j.
        exists (S m). split; [lia|]. split; [cbn; lia|]. intros i I. split; [|lia]. intros _. assert (X := off_le p l i (S m) ltac:(lia) L). lia.
      - exists j. split; [lia|]. split; [cbn; lia|]. intros i I. destruct (Nat.eq_dec i (S m)) as [->|NE]; [split; [lia|intros; lia]|apply J3; lia]. }
    apply G. lia. }
  destruct CNT as (j & J1 & J2 & J3). subst s'. cbn [spec_mop snd]. fold k. fold l. fold p. destruct (N.leb_spec (off_of p l (length l)) (N.of_nat n)) as [L|L].
  - unfold spec_open, restoring. cbn [s_h s_x x_old]. split; [destruct (t_mode tn), (k_flag k); auto; contradiction|]. exists j. split; [|exact J3].
    fold l. destruct (Nat.eq_dec (length l) 0) as [Z|NZ]; [destruct l; [rewrite firstn_nil; reflexivity|discriminate]|]. assert (X := proj2 (J3 (length l) ltac:(lia)) L). rewrite firstn_all2 by lia. reflexivity.
  - unfold spec_open, restoring. cbn [s_h s_x x_old k_flag k_recs]. split; [destruct (t_mode tn); auto; contradiction|]. exists j. split; [|exact J3]. unfold whole_part. rewrite J2. reflexivity.
Qed.

(** * A case *)
Definition b_mop (o : mop) (s : sess) : bool :=
  let g := s_g s in
  match o with
  | MDo _ o => (is_update o && negb (s_w s && s_h s)) || b_ops g [o] (s_x s)
  | MClear _ => negb (s_w s) || (s_h s && b_ops g [OSync None] (s_x s))
  | MRebuild _ a b c => negb (s_w s) || (s_h s && b_ops g [OSync None] (s_x s) && b_fits (tuned_sp (ordered_tuning a b c)) (settled s))
  | MSetType n => n <? 2^32
  | MSetOpaque _ | MInfo | MCrash _ _ _ _ => true
  | MReopen _ _ _ _ => negb (s_w s && s_h s) || b_ops g [OSync None] (s_x s)
  | MTorn _ n tn => Nat.leb 128 n && match t_mode tn with RDefault | RSync => true | _ => false end
  end.
Fixpoint b_mops (os : list mop) (s : sess) : bool := match os with [] => true | o :: os' => b_mop o s && b_mops os' (snd (spec_mop o s)) end.
Lemma b_mops_ok os : forall s, b_mops os s = true -> mops_ok os s.
Proof.
  induction os as [|o os IH]; intros s H; [exact I|]. cbn [b_mops mops_ok] in *. apply andb_prop in H as [H1 H2]. split; [|apply IH; exact H2]. clear IH H2.
  destruct o as [t o|t|t a b c|n|b| |t1 t2 w tn|t pad w tn|t n tn]; cbn [b_mop mop_ok] in *; auto.
  - intros X. rewrite X in H1. apply (b_ops_ok (s_g s) [o] (s_x s) H1).
  - intros X. rewrite X in H1. cbn [negb orb] in H1. apply andb_prop in H1 as [H1 H2]. split; [exact H1|apply (b_ops_ok (s_g s) [OSync None] (s_x s) H2)].
  - intros X. rewrite X in H1. cbn [negb orb] in H1. apply andb_prop in H1 as [H1 H3]. apply andb_prop in H1 as [H1 H2]. split; [exact H1|]. split; [apply (b_ops_ok (s_g s) [OSync None] (s_x s) H2)|apply b_fits_ok; exact H3].
  - apply N.ltb_lt. exact H1.
  - intros X. rewrite X in H1. apply (b_ops_ok (s_g s) [OSync None] (s_x s) H1).
  - apply andb_prop in H1 as [H1 H2]. split; [apply Nat.leb_le; exact H1|]. destruct (t_mode tn); auto; discriminate.
Qed.
Definition tn_case : tuning := mkT 4 2 3 (-1) false 2 RDefault.
Definition set (k v : N) : mop := MDo 7 (OInsert [k] (ASet [v])).
Definition look (l : list call) : mop := MDo 7 (OReads l).
Definition os_case : list mop :=
  [set 1 10; set 2 20; set 3 30; MSetType 77; MSetOpaque [5; 6]; MReopen 8 9 true tn_case; look [CGet [2]]; set 4 40; MDo 7 (OInsert [1] ARemove); MDo 7 (OSync None); set 5 50;
   MCrash 9 500 true tn_case; look [CGet [1]; CGet [4]; CGet [5]]; MTorn 9 150 tn_case; look [CGet [2]; CGet [3]; CGet [4]]; set 9 90; MRebuild 3 5 3 2; look [CGet [9]];
   MCrash 9 0 false tn_case; set 1 1; look [CGet [9]]; MReopen 1 1 true tn_case; MDo 7 OCount].
Example C49_case : mops_ok os_case (spec_new tn_case) /\
  fst (spec_mops os_case (spec_new tn_case)) =
  [MOut HNone; MOut HNone; MOut HNone; MOut HNone; MOut HNone; MMeta true true false 77 (5 :: 6 :: repeat 0 62); MOut (HOuts [OValue (Some [20])]); MOut HNone; MOut HNone; MOut HNone; MOut HNone;
   MMeta true true true 77 (5 :: 6 :: repeat 0 62); MOut (HOuts [OValue None; OValue (Some [40]); OValue None]);
   MMeta true true true 77 (5 :: 6 :: repeat 0 62); MOut (HOuts [OValue (Some [20]); OValue (Some [30]); OValue None]); MOut HNone; MOut HNone; MOut (HOuts [OValue (Some [90])]);
   MMeta false false false 77 (5 :: 6 :: repeat 0 62); MFail PRECONDITION_ERROR; MOut (HOuts [OValue (Some [90])]); MMeta true true true 77 (5 :: 6 :: repeat 0 62); MOut (HCount 3 6)].
Proof. split; [apply b_mops_ok; vm_compute; reflexivity|vm_compute; reflexivity]. Qed.

(** * What does not hold *)
(** Clear and then Close leaves a file that says that it was not closed: Clear writes the metadata as of an open file and reads it back, and with it the flag
    that Close would write.  Opened for writing, the database reports that it was restored automatically; for reading, that it is not healthy. *)
Theorem C49_clear_close_refuted : forall ver t t1 t2 t3 tn tn2 w, ver_ok (fst ver) (snd ver) -> t_mode tn2 <> RReadOnly -> exists m',
  run ver t tn [MClear t1; MReopen t2 t3 w tn2] = SOk ([MOut HNone; MMeta w w w 0 (repeat 0 64)], m').
Proof.
  intros ver t t1 t2 t3 tn tn2 w V M.
  assert (OK : forall p (g := tuned_cfg tn p), sp_rng p -> op_ok g (OSync None) (mkH [] [] [])).
  { intros p g R. split; [apply fits_nil; exact R|]. split; [constructor|]. intros _. cbn. split; [constructor|]. split; [apply fits_nil; exact R|]. intros _ _ _. constructor. }
  destruct (C49_skip_sessions_partial ver t tn [MClear t1; MReopen t2 t3 w tn2] V) as (m' & E).
  - cbn [mops_ok mop_ok]. split; [|split; [|exact I]]; cbn [spec_new spec_open s_w s_h s_g s_x k_p k_recs k_flag].
    + intros _. split; [reflexivity|]. apply OK. apply tuned_rng.
    + intros _. apply OK. apply tuned_rng.
  - exists m'. rewrite E. f_equal. f_equal. cbn [spec_mops spec_mop fst snd spec_new spec_open s_w s_h s_g s_x k_p k_recs k_flag k_type k_opaque]. unfold sinfo, spec_open, restoring. cbn.
    destruct (t_mode tn2); [| |contradiction|]; destruct w; reflexivity.
Qed.
(** RestoreDatabase of a file whose magic bytes are damaged does not fail, and can give a record that never was: here the database had the one record ("a", "b")
    and gets the one record ("", ""). *)
Theorem C49_restore_refuted : exists f f2 m,
  (let* m := m_open (1, 0) 5 true tn_case [] in let* d := insert (m_g m) [97] (ASet [98]) (m_d m) in m_close 6 (with_d m d)) = SOk f /\
  restore (1, 0) 7 (0 :: tl f) = SOk f2 /\ m_open (1, 0) 8 false tn_case f2 = SOk m /\ scan 10 (g_sp (m_g m)) f2 128 0 = SOk ([([], [])], None).
Proof.
  set (F := match (let* m := m_open (1, 0) 5 true tn_case [] in let* d := insert (m_g m) [97] (ASet [98]) (m_d m) in m_close 6 (with_d m d)) with SOk f => f | _ => [] end).
  set (F2 := match restore (1, 0) 7 (0 :: tl F) with SOk f => f | _ => [] end).
  exists F, F2. destruct (m_open (1, 0) 8 false tn_case F2) as [m| | |] eqn:E; [|vm_compute in E; discriminate..]. exists m.
  split; [vm_compute; reflexivity|]. split; [vm_compute; reflexivity|]. split; [reflexivity|]. vm_compute in E. inversion E. vm_compute. reflexivity.
Qed.

(** Whatever the bytes of the file are, a database that opens has parameters in their documented ranges: others are refused. *)
Theorem C49_checked : forall ver t w tn f m, m_open ver t w tn f = SOk m ->
  let p := g_sp (m_g m) in (3 <= ow p <= 6 /\ 2 <= step p <= 64 /\ 1 <= maxl p <= 32)%nat.
Proof.
  intros ver t w tn f m.
  assert (L : forall f s, load f = SOk s -> (3 <= ow (sm_p s) <= 6 /\ 2 <= step (sm_p s) <= 64 /\ 1 <= maxl (sm_p s) <= 32)%nat).
  { intros f' s. unfold load. destruct (read_meta f') as [s'|]; [|discriminate]. cbv zeta.
    match goal with |- context [if ?b then SErr _ else _] => destruct b eqn:E end; [discriminate|].
    intros H. injection H as <-. rewrite !Bool.orb_false_iff, !Nat.ltb_ge in E. lia. }
  unfold m_open, m_open_with. cbv zeta.
  match goal with |- context [sbind (load ?x) _] => destruct (load x) as [s0| | |] eqn:E0 end; cbn [sbind]; try discriminate. apply L in E0.
  match goal with |- (match ?x with pair _ _ => _ end) = _ -> _ => destruct x as [[healthy invalid] f1] end.
  destruct (w && negb healthy && _)%bool; [destruct (invalid && _)%bool|].
  - destruct (restore ver t f1) as [f2| | |]; cbn [sbind]; try discriminate.
    destruct (load f2) as [s2| | |] eqn:E2; cbn [sbind]; try discriminate. apply L in E2.
    intros H. assert (I : forall a b : mdb, SOk a = SOk b -> a = b) by congruence. apply I in H. subst m.
    match goal with |- context [if ?b then _ else _] => destruct b end; exact E2.
  - cbn [sbind]. intros H. assert (I : forall a b : mdb, SOk a = SOk b -> a = b) by congruence. apply I in H. subst m.
    match goal with |- context [if ?b then _ else _] => destruct b end; exact E0.
  - cbn [sbind]. intros H. assert (I : forall a b : mdb, SOk a = SOk b -> a = b) by congruence. apply I in H. subst m.
    match goal with |- context [if ?b then _ else _] => destruct b end; exact E0.
Qed.
Print Assumptions C49_checked.
(** A file with an offset width of 7 is refused; with its own width it opens. *)
Example C49_checked_ex :
  let f := new_file (1, 0) 5 tn_case in
  (exists m, m_open (1, 0) 6 false tn_case f = SOk m) /\ m_open (1, 0) 6 false tn_case (firstn 12 f ++ 7 :: skipn 13 f) = SErr BROKEN_DATA_ERROR.
Proof. vm_compute. split; [eexists|]; reflexivity. Qed.

Print Assumptions C49_skip_sessions_partial.
Print Assumptions C49_reopen.
Print Assumptions C49_crash.
Print Assumptions C49_torn.
Print Assumptions C49_clear_close_refuted.
Print Assumptions C49_restore_refuted.
