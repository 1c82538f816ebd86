(** C15 and C16 for a TreeDBM in one state: the tree, the cache of its pages and the file, with pages saved and evicted at any time. *)
From Coq Require Import List NArith ZArith Bool Lia Arith.
Import ListNotations.
From Verif Require Import Bytes BytesOrder MapSpec DbmModel StatusModel OmapSpec OmapHist BtreeModel BtreeHist OmapFacts BabyProps TreeProps TreePageModel TreePageProps TreeReopen
  FileModel FbpModel HashDbModel HashDbLayout HashDbAppend HashDbProofs HashDbProps TreeFileModel TreeFileProofs TreeFileProps TreeRunModel TreeRunHeap TreeRunProofs.
Open Scope nat_scope.

(** A session on a new database: the calls, with limits [mp] and [mb] of pages and branches, where [ks] says which of the nodes are inner nodes in the
    order of their creation, [stp] is what an operation on a page does to the storage, and [sched] what is saved or evicted before each operation.
    The result, and the operations done. *)
Definition session (strict : bool) (mp : N) (mb : nat) (cmp : bytes -> bytes -> comparison) (choose : list (id * bytes) -> nat) (ks : list bool)
    {St S} (stp : cop -> St -> pres (option pnode * St)) (sched : nat -> list (bool * N)) (cs : list (ocall S)) (st : S) (s : St) : mout St (list code * bdb * S) * list cop :=
  mi ks St stp sched (p_session cmp (tree_divide mp) (tree_merge mp) page_size (tree_how strict) mb 32 choose S cs st) 0 0 s.
(** The calls without Clear. *)
Definition no_clear {S} (c : ocall S) : Prop := c <> KClear.

Section Facts.
  Variables (strict : bool) (mp : N) (mb : nat) (cmp : bytes -> bytes -> comparison) (choose : list (id * bytes) -> nat) (S : Type) (cs : list (ocall S)) (st : S).
  Hypothesis pre : preorder cmp.
  Hypothesis NC : Forall no_clear cs.
  Definition prg := p_session cmp (tree_divide mp) (tree_merge mp) page_size (tree_how strict) mb 32 choose S cs st.
  Lemma calls_prg : tree_calls strict mp mb cmp choose cs b_init st = back3 (hi prg (fun _ => None) 0).
  Proof. apply hi_session. exact NC. Qed.
  Lemma prg_defined : hi prg (fun _ => None) 0 <> Ub BadAccess.
  Proof.
    intros E. pose proof (C15_history_partial strict mp mb cmp choose S cs st pre) as W. rewrite calls_prg, E in W. cbn in W. destruct W as [[X _]|X]; discriminate.
  Qed.
  Lemma session_runs : exists ks, forall sched, Forall fit_op (snd (session strict mp mb cmp choose ks c_step sched cs st c_init)) ->
    exists l g', hrun (snd (session strict mp mb cmp choose ks c_step sched cs st c_init)) (fun _ => None) l g' /\ ends ks (hi prg (fun _ => None) 0) (fst (session strict mp mb cmp choose ks c_step sched cs st c_init)) g'.
  Proof.
    destruct (kinds_exist _ prg (fun _ => None) 0 [] eq_refl) as [ks Hk]. exists ks. intros sched Fi. apply run_ok; auto.
    - intros y. reflexivity.
    - intros x. split; [reflexivity|discriminate].
    - apply prg_defined.
  Qed.
End Facts.

(** * C15 *)
(** Any history of calls, on a tree whose nodes are in a cache from which any of them may be evicted at any time, does what it does to an ordered map,
    if the pages fit.  The exceptions are those of C15_history_partial; no page fails to be loaded, saved or removed. *)
Theorem C15_cached_partial : forall strict mp mb cmp choose S (cs : list (ocall S)) st, preorder cmp -> Forall no_clear cs ->
  exists ks, forall sched, let '(out, log) := session strict mp mb cmp choose ks c_step sched cs st c_init in Forall fit_op log ->
  match out with
  | Fine (cds, v, st') _ _ _ => exists o', oruns cmp S cs o_empty st cds o' st' /\ b_num v = Z.of_nat (length (o_recs o')) /\ ascending cmp (o_recs o') /\
      (forall j, option_map fst (b_its v j) = o_pos o' j)
  | Wrong e => (e = EmptyFront /\ strict = true) \/ e = DeepTree
  | Failed => False
  end.
Proof.
  intros strict mp mb cmp choose S cs st pre NC. destruct (session_runs strict mp mb cmp choose S cs st pre NC) as [ks H]. exists ks. intros sched. specialize (H sched).
  destruct (session strict mp mb cmp choose ks c_step sched cs st c_init) as [out log]. cbn [fst snd] in H. intros Fi. destruct (H Fi) as (l & g' & _ & En).
  pose proof (C15_history_partial strict mp mb cmp choose S cs st pre) as W. rewrite (calls_prg strict mp mb cmp choose S cs st NC) in W.
  destruct (hi (prg strict mp mb cmp choose S cs st) (fun _ => None) 0) as [[[[[cds v] st'] h'] c']|e]; cbn in En, W.
  - destruct En as (t' & s' & -> & _). exact W.
  - subst out. exact W.
Qed.

(** The same with the pages in the file of a hash database of any format, as long as the file does not outgrow its format: the session ends as it
    does above, after the same operations. *)
Definition same_end {S1 S2 A} (a : mout S1 A) (b : mout S2 A) : Prop :=
  match a, b with Fine x c t _, Fine y c' t' _ => x = y /\ c = c' /\ t = t' | Wrong e, Wrong e' => e = e' | _, _ => False end.
Lemma go_f : forall d os s, go fstate (f_step d) os s = f_run d os s.
Proof. intros d. induction os as [|o os IH]; intros s; cbn [go f_run]; [reflexivity|]. destruct (f_step d o s) as [[a s1]| |]; cbn [pbind]; try reflexivity. now rewrite IH. Qed.
Theorem C15_on_file_partial : forall strict mp mb cmp choose S (cs : list (ocall S)) st, preorder cmp -> Forall no_clear cs ->
  exists ks, forall sched, let '(out, log) := session strict mp mb cmp choose ks c_step sched cs st c_init in Forall fit_op log -> Forall cop_ok log ->
  forall d cap, hdb_ok d -> (1 <= cap)%N -> (fsize (s_file (fst (h_run d (h_init d cap) (run_calls log c_init)))) <= capacity d)%N ->
  let '(out', log') := session strict mp mb cmp choose ks (f_step d) sched cs st (f_init d cap) in
  log' = log /\ same_end out out' /\
  match out' with
  | Fine (cds, v, st') _ _ _ => exists o', oruns cmp S cs o_empty st cds o' st' /\ b_num v = Z.of_nat (length (o_recs o')) /\ ascending cmp (o_recs o') /\
      (forall j, option_map fst (b_its v j) = o_pos o' j)
  | Wrong e => (e = EmptyFront /\ strict = true) \/ e = DeepTree
  | Failed => False
  end.
Proof.
  intros strict mp mb cmp choose S cs st pre NC. destruct (session_runs strict mp mb cmp choose S cs st pre NC) as [ks H]. exists ks. intros sched. specialize (H sched).
  destruct (session strict mp mb cmp choose ks c_step sched cs st c_init) as [out log] eqn:Es. cbn [fst snd] in H. intros Fi Fo d cap Hd Hc Hs. destruct (H Fi) as (l & g' & R & En).
  pose proof (C15_history_partial strict mp mb cmp choose S cs st pre) as W. rewrite (calls_prg strict mp mb cmp choose S cs st NC) in W.
  assert (W2 : match out with
    | Fine (cds, v, st') _ _ _ => exists o', oruns cmp S cs o_empty st cds o' st' /\ b_num v = Z.of_nat (length (o_recs o')) /\ ascending cmp (o_recs o') /\ (forall j, option_map fst (b_its v j) = o_pos o' j)
    | Wrong e => (e = EmptyFront /\ strict = true) \/ e = DeepTree | Failed => False end).
  { destruct (hi (prg strict mp mb cmp choose S cs st) (fun _ => None) 0) as [[[[[cds v] st'] h'] c']|e]; cbn in En, W; [destruct En as (t' & s' & -> & _)|subst out]; exact W. }
  destruct (C15_evictions log l g' R) as (s' & E & _). destruct (C15_pages_in_file log l g' R Fo d cap Hd Hc Hs) as (f & Ef & _).
  unfold session in *.
  pose proof (mi_moves ks sched cstate fstate c_step (f_step d) _ (p_session cmp (tree_divide mp) (tree_merge mp) page_size (tree_how strict) mb 32 choose S cs st) 0 0 c_init (f_init d cap) l s' f) as M.
  rewrite Es in M. cbn [fst snd] in M. rewrite M; [|intros ->; exact W2|exact E|rewrite go_f; exact Ef]. split; auto. destruct out as [[[cds v] st'] c t s|e|]; cbn; auto.
Qed.

(** * C16 *)
(** Closing after a session: once the cache has been emptied, the stored pages are the nodes of the tree that the calls made, each under its id. *)
Theorem C16_session_pages : forall strict mp mb cmp choose S (cs : list (ocall S)) st, preorder cmp -> Forall no_clear cs ->
  exists ks, forall sched, let '(out, log) := session strict mp mb cmp choose ks c_step sched cs st c_init in Forall fit_op log ->
  match out with
  | Fine (cds, v, st') c _ s => exists h, tree_calls strict mp mb cmp choose cs b_init st = Ok (cds, full v h c, st') /\
      forall xs, (forall x, c_cache s x <> None -> In x xs) ->
      exists s2 l2, c_run (map CEvict xs) s = POk (l2, s2) /\ (forall x, c_cache s2 x = None) /\
      forall x, match h x with
                | Some n => exists p, c_store s2 (pid ks x) = Some p /\ load_node (pid ks x) p = POk (page_of (pid ks) n)
                | None => c_store s2 (pid ks x) = None
                end
  | _ => True
  end.
Proof.
  intros strict mp mb cmp choose S cs st pre NC. destruct (session_runs strict mp mb cmp choose S cs st pre NC) as [ks H]. exists ks. intros sched. specialize (H sched).
  destruct (session strict mp mb cmp choose ks c_step sched cs st c_init) as [out log] eqn:Es. cbn [fst snd] in H. intros Fi. destruct (H Fi) as (l & g' & R & En).
  rewrite (calls_prg strict mp mb cmp choose S cs st NC).
  destruct (hi (prg strict mp mb cmp choose S cs st) (fun _ => None) 0) as [[[[[cds v] st'] h'] c']|e]; cbn in En; [|subst out; exact I].
  destruct En as (t' & s' & -> & _ & P). exists h'. split; [reflexivity|]. intros xs Hx.
  destruct (C15_evictions log l g' R) as (s0 & E & _).
  pose proof (mi_moves ks sched cstate cstate c_step c_step _ (p_session cmp (tree_divide mp) (tree_merge mp) page_size (tree_how strict) mb 32 choose S cs st) 0 0 c_init c_init l s0 s0) as M.
  unfold session in Es. rewrite Es in M. cbn [fst snd moved_to] in M. assert (s' = s0) as ->. { assert (X : (Fine (cds, v, st') c' t' s', log) = (Fine (cds, v, st') c' t' s0, log)) by (apply M; [discriminate|exact E|exact E]). now injection X. }
  destruct (C16_pages log l g' s0 R E xs Hx) as (s2 & l2 & A & B & C). exists s2, l2. split; auto. split; auto. intros x. specialize (C (pid ks x)). rewrite P in C. destruct (h' x) as [n|]; cbn in C; exact C.
Qed.

(** * Cases *)
(** The kinds of the nodes that a program creates. *)
Fixpoint kinds {A} (p : prog A) (h : BtreeModel.heap) (c : id) : list bool :=
  match p with
  | Ret _ | Bad _ => []
  | Load x k => match h x with Some n => kinds (k n) h c | None => [] end
  | Write x n k => kinds k (updn h x (Some n)) c
  | New n k => is_inn n :: kinds (k c) (updn h c (Some n)) (S c)
  | Drop x k => kinds k (updn h x None) c
  | Size k => kinds (k c) h c
  end.
(** Pages of 40 bytes and two branches; all pages are evicted before every operation. *)
Definition rdemo : list (ocall (list (bytes * bytes))) :=
  map (fun i => KProcess (key2 i) (pset [1%N; 2%N]) true) (seq 0 24) ++ map (fun i => KProcess (key2 (2 * i)) pdel true) (seq 0 10) ++
  [KItUpper 0 (key2 10) true; KItProcess 0 collect false; KItLower 1 (key2 10) true; KItProcess 1 collect false; KItPrev 1; KItProcess 1 collect false].
Definition rkinds : list bool := kinds (p_session bcmp (tree_divide 40) (tree_merge 40) page_size (tree_how false) 2 32 (fun _ => 0) _ rdemo []) (fun _ => None) 0.
Definition thrash (_ : nat) : list (bool * N) := map (fun y => (true, pid rkinds y)) (seq 0 (length rkinds)).
Definition fitb (x : N) (n : pnode) : bool :=
  match n with
  | PLeaf p q rs => negb (is_inner x) && (p <? 2^48)%N && (q <? 2^48)%N && (leaf_size rs <? 2^31)%N
  | PInner h ls => is_inner x && (h <? 2^48)%N && forallb (fun l => (snd l <? 2^48)%N) ls && (inner_size ls <? 2^31)%N
  end.
Definition fit_opb (o : cop) : bool := match o with CWrite x n | CNew x n => fitb x n | _ => true end.
Definition rout := session false 40 2 bcmp (fun _ => 0) rkinds c_step thrash rdemo [] c_init.
Example C15_cached_case :
  match fst rout with Fine (_, v, out) c _ _ => out = [(key2 11, [1%N; 2%N]); (key2 9, [1%N; 2%N]); (key2 7, [1%N; 2%N])] /\ b_num v = 14%Z /\ 3 <= b_level v /\ 19 <= c | _ => False end /\
  forallb fit_opb (snd rout) = true /\ 1000 <= length (snd rout) /\ Forall no_clear rdemo.
Proof. split; [|split; [vm_compute; reflexivity|split]]. - vm_compute. repeat split; lia. - apply Nat.leb_le. vm_compute. reflexivity. - repeat constructor; discriminate. Qed.

(** The same on a file, with five records; the hypotheses of C15_on_file_partial hold. *)
Definition fdemo : list (ocall (list (bytes * bytes))) :=
  map (fun i => KProcess (key2 i) (pset [1%N; 2%N]) true) (seq 0 5) ++ [KProcess (key2 1) pdel true; KItFirst 0; KItProcess 0 collect false; KItNext 0; KItProcess 0 collect false].
Definition fkinds : list bool := kinds (p_session bcmp (tree_divide 30) (tree_merge 30) page_size (tree_how false) 2 32 (fun _ => 0) _ fdemo []) (fun _ => None) 0.
Definition fthrash (_ : nat) : list (bool * N) := map (fun y => (true, pid fkinds y)) (seq 0 (length fkinds)).
Definition fout := session false 30 2 bcmp (fun _ => 0) fkinds c_step fthrash fdemo [] c_init.
Definition bytesb (l : bytes) : bool := forallb (fun b => (b <? 256)%N) l.
Definition page_fitb (n : pnode) : bool :=
  match n with
  | PLeaf _ _ rs => forallb (fun r => bytesb (fst r) && bytesb (snd r)) rs && (leaf_size rs <=? VALUE_LIMIT)%N
  | PInner _ ls => forallb (fun l => bytesb (fst l)) ls && (inner_size ls <=? VALUE_LIMIT)%N
  end.
Definition cop_okb (o : cop) : bool :=
  match o with CLoad x | CSave x | CEvict x | CRemove x => (x <? 2^48)%N | CWrite x n | CNew x n => (x <? 2^48)%N && page_fitb n end.
Example C15_on_file_case :
  forallb fit_opb (snd fout) = true /\ forallb cop_okb (snd fout) = true /\ hdb_ok (ex_db true) /\
  (fsize (s_file (fst (h_run (ex_db true) (h_init (ex_db true) 4) (run_calls (snd fout) c_init)))) <=? capacity (ex_db true))%N = true /\
  match fst (session false 30 2 bcmp (fun _ => 0) fkinds (f_step (ex_db true)) fthrash fdemo [] (f_init (ex_db true) 4)) with
  | Fine (_, v, out) c _ _ => out = [(key2 0, [1%N; 2%N]); (key2 2, [1%N; 2%N])] /\ b_num v = 4%Z /\ 2 <= b_level v /\ 3 <= c
  | _ => False
  end.
Proof. split; [vm_compute; reflexivity|]. split; [vm_compute; reflexivity|]. split; [split; [split; [cbn; lia|split; [cbn; lia|cbn; auto]]|split; [reflexivity|vm_compute; congruence]]|]. split; [vm_compute; reflexivity|]. vm_compute. repeat split; lia. Qed.

Print Assumptions C15_cached_partial.
Print Assumptions C15_on_file_partial.
Print Assumptions C16_session_pages.
