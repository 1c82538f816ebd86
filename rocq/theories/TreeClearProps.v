(** C15 for a TreeDBM in one state, with Clear: every Clear discards the caches, empties the file and starts a new tree, whose pages have the ids from the
    start again. *)
From Coq Require Import List NArith ZArith Bool Lia Arith.
Import ListNotations.
From Verif Require Import Bytes BytesOrder MapSpec DbmModel StatusModel OmapSpec OmapHist BtreeModel BtreeHist OmapFacts BabyProps TreeProps TreePageModel TreePageProps TreeReopen
  FileModel FbpModel HashDbModel HashDbLayout HashDbAppend HashDbProofs HashDbProps TreeFileModel TreeFileProofs TreeFileProps TreeRunModel TreeRunHeap TreeRunProofs TreeRunProps.
Open Scope nat_scope.

(** The calls before the first Clear, and those after each (the calls of a program on one TreeDBM, not a function of the code). *)
Fixpoint parts {S} (cs : list (ocall S)) : list (ocall S) * list (list (ocall S)) :=
  match cs with
  | [] => ([], [])
  | c :: r => let '(a, b) := parts r in match c with KClear => ([], a :: b) | _ => (c :: a, b) end
  end.
(** How it all ends. *)
Inductive cout (S : Type) := CFine (cds : list code) (v : bdb) (st : S) | CWrong (e : ub) | CFailed.
Arguments CFine {S}. Arguments CWrong {S}. Arguments CFailed {S}.
Definition after_clear {S} (cds : list code) (o : cout S) : cout S := match o with CFine cds2 v st => CFine (cds ++ SUCCESS :: cds2) v st | o => o end.
(** Clear, tkrzw_dbm_tree.cc:808-844: iterators and the list of nodes to reorganize are reset, the caches discarded, the hash database cleared, the counters
    of nodes (so the ids) start anew, and a leaf is made.  [init]: the storage of a new database, which HashDBM::Clear leaves (tkrzw_dbm_hash.cc:655-692:
    CloseImpl, Truncate and OpenImpl with the same parameters; not modelled in detail).  The processors keep their state.
    The kinds of nodes and the schedule are given for each part.  The result, and the operations of each part. *)
Section Cleared.
  Variables (strict : bool) (mp : N) (mb : nat) (cmp : bytes -> bytes -> comparison) (choose : list (id * bytes) -> nat) (S : Type).
  Variables (St : Type) (stp : cop -> St -> pres (option pnode * St)) (init : St).
  Fixpoint cleared (a : list (ocall S)) (b : list (list (ocall S))) (kss : nat -> list bool) (scheds : nat -> nat -> list (bool * N)) (st : S) : cout S * list (list cop) :=
    let r := session strict mp mb cmp choose (kss 0) stp (scheds 0) a st init in
    match fst r with
    | Fine (cds, v, st') _ _ _ =>
        match b with
        | [] => (CFine cds v st', [snd r])
        | a' :: b' => let q := cleared a' b' (fun i => kss (1 + i)) (fun i => scheds (1 + i)) st' in (after_clear cds (fst q), snd r :: snd q)
        end
    | Wrong e => (CWrong e, [snd r])
    | Failed => (CFailed, [snd r])
    end.
End Cleared.

Section Facts.
  Variables (strict : bool) (mp : N) (mb : nat) (cmp : bytes -> bytes -> comparison) (choose : list (id * bytes) -> nat) (S : Type).
  Hypothesis pre : preorder cmp.
  Definition good_end (cs : list (ocall S)) (st : S) (cds : list code) (v : bdb) (st' : S) : Prop :=
    exists o', oruns cmp S cs o_empty st cds o' st' /\ b_num v = Z.of_nat (length (o_recs o')) /\ ascending cmp (o_recs o') /\ (forall j, option_map fst (b_its v j) = o_pos o' j).
  Definition bad_end (e : ub) : Prop := (e = EmptyFront /\ strict = true) \/ e = DeepTree.
  Definition file_fits (d : hdb) (cap : N) (log : list cop) : Prop :=
    Forall cop_ok log /\ (fsize (s_file (fst (h_run d (h_init d cap) (run_calls log c_init)))) <= capacity d)%N.
  (** One part ends as its calls do on nodes that are in memory, whatever is evicted. *)
  Lemma segment (a : list (ocall S)) (st : S) : Forall no_clear a -> exists ks res, forall sched,
    let r := session strict mp mb cmp choose ks c_step sched a st c_init in Forall fit_op (snd r) ->
    match res with
    | inl (cds, v, st') => good_end a st cds v st' /\ exists c t s, fst r = Fine (cds, v, st') c t s
    | inr e => bad_end e /\ fst r = Wrong e
    end /\
    (forall d cap, hdb_ok d -> (1 <= cap)%N -> file_fits d cap (snd r) ->
      let r' := session strict mp mb cmp choose ks (f_step d) sched a st (f_init d cap) in snd r' = snd r /\ same_end (fst r) (fst r')).
  Proof.
    intros NC. destruct (session_runs strict mp mb cmp choose S a st pre NC) as [ks H].
    exists ks, (match hi (prg strict mp mb cmp choose S a st) (fun _ => None) 0 with Ok (cds, v, st', _, _) => inl (cds, v, st') | Ub e => inr e end).
    intros sched. specialize (H sched). cbv zeta.
    destruct (session strict mp mb cmp choose ks c_step sched a st c_init) as [out log] eqn:Es. cbn [fst snd] in *. intros Fi. destruct (H Fi) as (l & g' & R & En).
    pose proof (C15_history_partial strict mp mb cmp choose S a st pre) as W. rewrite (calls_prg strict mp mb cmp choose S a st NC) in W.
    assert (NF : out <> Failed).
    { destruct (hi (prg strict mp mb cmp choose S a st) (fun _ => None) 0) as [[[[[cds v] st'] h'] c']|e]; cbn in En; [destruct En as (t' & s' & -> & _)|subst out]; discriminate. }
    split.
    - destruct (hi (prg strict mp mb cmp choose S a st) (fun _ => None) 0) as [[[[[cds v] st'] h'] c']|e]; cbn in En, W.
      + destruct En as (t' & s' & -> & _). split; [exact W|]. do 3 eexists. reflexivity.
      + subst out. split; [exact W | reflexivity].
    - intros d cap Hd Hc [Fo Hs]. destruct (C15_evictions log l g' R) as (s' & E & _). destruct (C15_pages_in_file log l g' R Fo d cap Hd Hc Hs) as (f & Ef & _).
      unfold session in *.
      pose proof (mi_moves ks sched cstate fstate c_step (f_step d) _ (p_session cmp (tree_divide mp) (tree_merge mp) page_size (tree_how strict) mb 32 choose S a st) 0 0 c_init (f_init d cap) l s' f) as M.
      rewrite Es in M. cbn [fst snd] in M. rewrite M; [|intros ->; apply NF; reflexivity|exact E|rewrite go_f; exact Ef]. cbn [fst snd]. split; auto.
      destruct out as [[[cds v] st'] c t s|e|]; cbn; auto.
  Qed.
  Lemma oruns_app cs1 : forall o st cds1 o1 st1, oruns cmp S cs1 o st cds1 o1 st1 -> forall cs2 cds2 o2 st2, oruns cmp S cs2 o1 st1 cds2 o2 st2 ->
    oruns cmp S (cs1 ++ cs2) o st (cds1 ++ cds2) o2 st2.
  Proof. intros o st cds1 o1 st1 H. induction H; intros cs2 cds2 o3 st3 H3; cbn [app]; [exact H3|]. econstructor; eauto. Qed.
  Lemma parts_join (cs : list (ocall S)) : let '(a, b) := parts cs in cs = a ++ flat_map (cons KClear) b /\ Forall no_clear a /\ Forall (Forall no_clear) b.
  Proof.
    induction cs as [|c cs IH]; cbn [parts]; [repeat split; constructor|]. destruct (parts cs) as [a b]. destruct IH as (-> & A & B).
    destruct c; cbn [app flat_map]; repeat split; auto; constructor; auto; discriminate.
  Qed.
  Lemma all_parts b : forall a st, Forall no_clear a -> Forall (Forall no_clear) b -> exists kss, forall scheds,
    let r := cleared strict mp mb cmp choose S cstate c_step c_init a b kss scheds st in Forall (Forall fit_op) (snd r) ->
    match fst r with CFine cds v st' => good_end (a ++ flat_map (cons KClear) b) st cds v st' | CWrong e => bad_end e | CFailed => False end /\
    (forall d cap, hdb_ok d -> (1 <= cap)%N -> Forall (file_fits d cap) (snd r) -> cleared strict mp mb cmp choose S fstate (f_step d) (f_init d cap) a b kss scheds st = r).
  Proof.
    induction b as [|a' b IH]; intros a st NA NB; destruct (segment a st NA) as (ks & res & H).
    - exists (fun _ => ks). intros scheds. specialize (H (scheds 0)). cbv zeta in *. cbn [cleared flat_map]. rewrite app_nil_r.
      set (r := session strict mp mb cmp choose ks c_step (scheds 0) a st c_init) in *. intros Fi.
      assert (F1 : Forall fit_op (snd r)) by (destruct (fst r) as [[[cds v] st'] c t s|e|]; inversion Fi; assumption).
      destruct (H F1) as [H1 H2]. destruct res as [[[cds v] st']|e].
      + destruct H1 as (G & c & t & s & E). rewrite E in *. split; [exact G|]. intros d cap Hd Hc Ff. inversion Ff as [|? ? F _]; subst.
        destruct (H2 d cap Hd Hc F) as [L Sm]. cbn [same_end] in Sm. destruct (fst (session _ _ _ _ _ _ (f_step d) _ _ _ _)) as [y c1 t1 s1|e1|]; try tauto.
        destruct Sm as (<- & _ & _). cbn [fst snd] in *. rewrite L. reflexivity.
      + destruct H1 as [G E]. rewrite E in *. split; [exact G|]. intros d cap Hd Hc Ff. inversion Ff as [|? ? F _]; subst.
        destruct (H2 d cap Hd Hc F) as [L Sm]. cbn [same_end] in Sm. destruct (fst (session _ _ _ _ _ _ (f_step d) _ _ _ _)) as [y c1 t1 s1|e1|]; try tauto. subst e1.
        cbn [fst snd] in *. rewrite L. reflexivity.
    - inversion NB as [|? ? NA' NB']; subst. destruct res as [[[cds v] st']|e].
      + destruct (IH a' st' NA' NB') as [kss H']. exists (fun i => match i with O => ks | Datatypes.S j => kss j end). intros scheds. specialize (H (scheds 0)).
        specialize (H' (fun i => scheds (1 + i))). cbv zeta in *. cbn [cleared]. change (fun i : nat => kss i) with kss.
        set (r := session strict mp mb cmp choose ks c_step (scheds 0) a st c_init) in *.
        change (fun i : nat => match 1 + i with O => ks | Datatypes.S j => kss j end) with kss.
        set (q := cleared strict mp mb cmp choose S cstate c_step c_init a' b kss (fun i => scheds (1 + i)) st') in *. intros Fi.
        assert (F1 : Forall fit_op (snd r)).
        { destruct (fst r) as [[[cds1 v1] st1] c t s|e|]; inversion Fi; assumption. }
        destruct (H F1) as [H1 H2]. destruct H1 as (G & c & t & s & E). rewrite E in *. fold q in Fi. fold q. inversion Fi as [|? ? _ Fi2]; subst.
        destruct (H' Fi2) as [H3 H4]. cbn [fst snd]. split.
        * destruct (fst q) as [cds2 v2 st2|e|]; cbn [after_clear]; [|exact H3|exact H3]. destruct G as (o1 & R1 & _ & _ & _). destruct H3 as (o2 & R2 & X & Y & Z).
          exists o2. split; [|auto]. eapply oruns_app; [exact R1|]. cbn [flat_map app]. econstructor; [|exact R2]. cbn [ostep]. repeat split; reflexivity.
        * intros d cap Hd Hc Ff. inversion Ff as [|? ? F Ff2]; subst. destruct (H2 d cap Hd Hc F) as [L Sm]. cbn [same_end] in Sm. specialize (H4 d cap Hd Hc Ff2).
          destruct (fst (session _ _ _ _ _ _ (f_step d) _ _ _ _)) as [y c1 t1 s1|e1|]; try tauto. destruct Sm as (<- & _ & _).
          change (fun i : nat => match 1 + i with O => ks | Datatypes.S j => kss j end) with kss. rewrite H4, L. reflexivity.
      + exists (fun _ => ks). intros scheds. specialize (H (scheds 0)). cbv zeta in *. cbn [cleared].
        set (r := session strict mp mb cmp choose ks c_step (scheds 0) a st c_init) in *. intros Fi.
        assert (F1 : Forall fit_op (snd r)) by (destruct (fst r) as [[[cds v] st'] c t s|e1|]; inversion Fi; assumption).
        destruct (H F1) as [H1 H2]. destruct H1 as [G E]. rewrite E in *. split; [exact G|]. intros d cap Hd Hc Ff. inversion Ff as [|? ? F _]; subst.
        destruct (H2 d cap Hd Hc F) as [L Sm]. cbn [same_end] in Sm. destruct (fst (session _ _ _ _ _ _ (f_step d) _ _ _ _)) as [y c1 t1 s1|e1|]; try tauto. subst e1.
        cbn [fst snd] in *. rewrite L. reflexivity.
  Qed.
End Facts.

(** * C15 *)
(** Any history of calls with any number of Clears, on a tree whose nodes are in a cache from which any of them may be evicted at any time, does what it does
    to an ordered map, if the pages fit; and with the pages in the file of a hash database that does not outgrow its format, the results and the operations
    are the same. *)
Theorem C15_clear_partial : forall strict mp mb cmp choose S (cs : list (ocall S)) st, preorder cmp -> exists kss, forall scheds,
  let '(a, b) := parts cs in
  let '(out, logs) := cleared strict mp mb cmp choose S cstate c_step c_init a b kss scheds st in Forall (Forall fit_op) logs ->
  match out with
  | CFine cds v st' => exists o', oruns cmp S cs o_empty st cds o' st' /\ b_num v = Z.of_nat (length (o_recs o')) /\ ascending cmp (o_recs o') /\
      (forall j, option_map fst (b_its v j) = o_pos o' j)
  | CWrong e => (e = EmptyFront /\ strict = true) \/ e = DeepTree
  | CFailed => False
  end /\
  (forall d cap, hdb_ok d -> (1 <= cap)%N ->
    Forall (fun log => Forall cop_ok log /\ (fsize (s_file (fst (h_run d (h_init d cap) (run_calls log c_init)))) <= capacity d)%N) logs ->
    cleared strict mp mb cmp choose S fstate (f_step d) (f_init d cap) a b kss scheds st = (out, logs)).
Proof.
  intros strict mp mb cmp choose S cs st pre. pose proof (parts_join S cs) as J. destruct (parts cs) as [a b]. destruct J as (E & NA & NB).
  destruct (all_parts strict mp mb cmp choose S pre b a st NA NB) as [kss H]. exists kss. intros scheds. specialize (H scheds). cbv zeta in H.
  destruct (cleared _ _ _ _ _ _ _ c_step _ a b kss scheds st) as [out logs]. cbn [fst snd] in H. intros Fi. destruct (H Fi) as [H1 H2]. split; [|exact H2].
  rewrite E. exact H1.
Qed.

(** The demonstration of TreeRunProps.v, a Clear, and two records more; everything is evicted before every operation. *)
Definition cdemo : list (ocall (list (bytes * bytes))) :=
  rdemo ++ [KClear; KProcess (key2 3) (pset [7%N]) true; KItFirst 0; KItProcess 0 collect false; KProcess (key2 1) (pset [8%N]) true].
Definition ckinds (i : nat) : list bool := match i with O => rkinds | _ => [false] end.
Example C15_clear_case :
  let '(a, b) := parts cdemo in length b = 1 /\
  let '(out, logs) := cleared false 40 2 bcmp (fun _ => 0) _ cstate c_step c_init a b ckinds (fun _ => thrash) [] in
  forallb (forallb fit_opb) logs = true /\
  match out with CFine _ v st => b_num v = 2%Z /\ length st = 4 /\ b_level v = 1 | _ => False end.
Proof. vm_compute. repeat split; reflexivity. Qed.
Print Assumptions C15_clear_partial.
