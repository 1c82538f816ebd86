(** C59: RebuildAdvanced, SynchronizeAdvanced and RestoreDatabase of PolyDBM.  Source: /repo/tkrzw_dbm_poly.cc:681-756, 765-804, 871-886. *)
From Coq Require Import List NArith ZArith Bool String Ascii Lia Arith.
Import ListNotations.
From Verif Require Import Bytes StatusModel SearchModel PathModel PathProofs PolyModel PolyProofs PolyProps.
Open Scope list_scope.
Open Scope nat_scope.

(** What is done to the database (class, comparator that is given; the paths of databases to merge; the reducer). *)
Inductive act := ARebuild (c : dbclass) (k : option comparator) | AMerge (path : bytes) | ASync (c : dbclass) (r : option reducer).
(** The names that RebuildAdvanced erases, tkrzw_dbm_poly.cc:687-751. *)
Definition rebuild_names (c : dbclass) : list string :=
  match c with
  | Hash | Tree | Skip => tuning_names c ++ ["skip_broken_records"; "sync_hard"]%string
  | Tiny | Cache => tuning_names c
  | Baby | StdHash | StdTree => []
  end.
Section Admin.
  (** What the database answers. *)
  Variable answer : act -> code.
  (** RebuildAdvanced, tkrzw_dbm_poly.cc:681-756. *)
  Definition rebuild_advanced (ps : params) (p : poly) : code * list act :=
    match p_dbm p with
    | None => (PRECONDITION_ERROR, [])
    | Some i =>
        let c := i_class i in
        match erase_all (rebuild_names c) ps with
        | _ :: _ => (INVALID_ARGUMENT_ERROR, [])
        | [] => let a := ARebuild c (match c with Tree => comparator_of (search_map ps (txt "key_comparator") []) | _ => None end) in (answer a, [a])
        end
    end.
  (** The loop over the databases to merge, tkrzw_dbm_poly.cc:774-780. *)
  Fixpoint merge_all (l : list bytes) : code * list act :=
    match l with
    | [] => (SUCCESS, [])
    | x :: r => match answer (AMerge x) with SUCCESS => let '(cd, acts) := merge_all r in (cd, AMerge x :: acts) | cd => (cd, [AMerge x]) end
    end.
  (** SynchronizeAdvanced, tkrzw_dbm_poly.cc:765-804. *)
  Definition synchronize_advanced (ps : params) (p : poly) : code * list act :=
    match p_dbm p with
    | None => (PRECONDITION_ERROR, [])
    | Some i =>
        match i_class i with
        | Skip =>
            match merge_all (str_split 58 true (search_map ps (txt "merge") [])) with
            | (SUCCESS, acts) =>
                let name := search_map ps (txt "reducer") [] in
                let r := match name with [] => Some None | _ => match reducer_of name with Some r => Some (Some r) | None => None end end in
                match r with
                | None => (INVALID_ARGUMENT_ERROR, acts)
                | Some r =>
                    match erase_all ["merge"; "reducer"]%string ps with
                    | _ :: _ => (INVALID_ARGUMENT_ERROR, acts)
                    | [] => (answer (ASync Skip r), acts ++ [ASync Skip r])
                    end
                end
            | (cd, acts) => (cd, acts)
            end
        | c => match ps with _ :: _ => (INVALID_ARGUMENT_ERROR, []) | [] => (answer (ASync c None), [ASync c None]) end
        end
    end.
End Admin.
(** RestoreDatabase, tkrzw_dbm_poly.cc:871-886: the class whose RestoreDatabase is called; None: INFEASIBLE_ERROR. *)
Definition restore_class (path name : bytes) : option dbclass :=
  let c := match lower_case name with [] => guess path | n => pick n class_names end in
  match c with Some Hash => Some Hash | Some Tree => Some Tree | Some Skip => Some Skip | _ => None end.

(** * Specification: the documentation, /repo/tkrzw_dbm_poly.h:504-517 *)
Definition doc_rebuild (c : dbclass) : list string :=
  match c with
  | Hash | Tree | Skip => doc_params c ++ ["skip_broken_records"; "sync_hard"]%string
  | Tiny | Cache => doc_params c
  | _ => []
  end.
Lemma erased_all ks ps : erase_all ks ps = [] <-> forall n, In n (map fst ps) -> In n (map txt ks).
Proof.
  split.
  - intros E n I. apply in_map_iff in I. destruct I as (a & <- & I). destruct (in_dec (list_eq_dec N.eq_dec) (fst a) (map txt ks)) as [D|D]; auto.
    exfalso. assert (X : In a (erase_all ks ps)) by (apply in_erase_all; auto). rewrite E in X. destruct X.
  - intros H. destruct (erase_all ks ps) as [|a l] eqn:E; auto. exfalso. assert (X : In a (erase_all ks ps)) by (rewrite E; left; reflexivity).
    apply in_erase_all in X. destruct X as [X1 X2]. apply X2, H, in_map, X1.
Qed.
(** RebuildAdvanced rebuilds the open database if all parameters are documented for its class, and else does nothing and says so. *)
Theorem C59_rebuild : forall answer ps p,
  match p_dbm p with
  | None => rebuild_advanced answer ps p = (PRECONDITION_ERROR, [])
  | Some i =>
      ((forall n, In n (map fst ps) -> In n (map txt (doc_rebuild (i_class i)))) ->
        exists a, (exists k, a = ARebuild (i_class i) k) /\ rebuild_advanced answer ps p = (answer a, [a])) /\
      ((exists n, In n (map fst ps) /\ ~ In n (map txt (doc_rebuild (i_class i)))) -> rebuild_advanced answer ps p = (INVALID_ARGUMENT_ERROR, []))
  end.
Proof.
  intros answer ps p. unfold rebuild_advanced. destruct (p_dbm p) as [i|]; [|reflexivity].
  assert (N : rebuild_names (i_class i) = doc_rebuild (i_class i)) by (destruct (i_class i); reflexivity). rewrite N. split.
  - intros H. apply erased_all in H. rewrite H. eexists. split; [eexists; reflexivity|reflexivity].
  - intros (n & I & U). destruct (erase_all (doc_rebuild (i_class i)) ps) eqn:E; [|reflexivity]. exfalso. apply U. exact (proj1 (erased_all _ _) E n I).
Qed.
(** But a comparator that is not known is taken for none by RebuildAdvanced of TreeDBM, too. *)
Theorem C59_rebuild_comparator_refuted : forall answer v f k o l, comparator_of v = None ->
  rebuild_advanced answer [(txt "key_comparator", v)] (mkPoly (Some (mkInst Tree f k o l)) true) = (answer (ARebuild Tree None), [ARebuild Tree None]).
Proof. intros answer v f k o l H. unfold rebuild_advanced. cbn [p_dbm i_class]. change (search_map [(txt "key_comparator", v)] (txt "key_comparator") []) with v. rewrite H. reflexivity. Qed.
(** SynchronizeAdvanced that succeeds had documented parameters only, merged every database of "merge" in order and used the reducer that was named. *)
Theorem C59_synchronize : forall answer ps p i, NoDup (map fst ps) -> p_dbm p = Some i -> (forall a, answer a = SUCCESS) ->
  match synchronize_advanced answer ps p with (cd, acts) =>
    cd = SUCCESS ->
    match i_class i with
    | Skip => (forall n, In n (map fst ps) -> n = txt "merge" \/ n = txt "reducer") /\
        exists r, acts = map AMerge (filter (fun x => 0 <? length x) (str_split 58 false (search_map ps (txt "merge") []))) ++ [ASync Skip r] /\
          (absent ps "reducer" -> r = None) /\ (forall v a, value ps "reducer" v -> named doc_reducers v a -> r = Some a) /\
          (forall v, value ps "reducer" v -> v <> [] -> r <> None)
    | c => ps = [] /\ acts = [ASync c None]
    end
  end.
Proof.
  intros answer ps p i ND P A. unfold synchronize_advanced. rewrite P. destruct (i_class i); try (destruct ps; [intros _; split; reflexivity|discriminate]).
  assert (M : forall l, merge_all answer l = (SUCCESS, map AMerge l)) by (induction l as [|x l IH]; cbn; [reflexivity|rewrite A, IH; reflexivity]).
  rewrite M. cbv zeta. destruct (match search_map ps (txt "reducer") [] with [] => _ | _ => _ end) as [r|] eqn:R; [|discriminate].
  destruct (erase_all ["merge"; "reducer"]%string ps) eqn:E; [|discriminate]. intros _. split.
  - intros n I. pose proof (proj1 (erased_all _ _) E n I) as X. cbn [map In] in X. intuition.
  - exists r. split; [f_equal; f_equal; rewrite PathProofs.str_split_skip, PathProofs.str_split_all; apply filter_ext; intros [|x y]; reflexivity|]. split; [|split].
    + intros Ab. rewrite (search_none ps "reducer" [] Ab) in R. congruence.
    + intros v a V N. rewrite (search_value ps _ v _ ND V) in R. pose proof (C59_reducer_partial v a N) as X. rewrite X in R. destruct v; [|congruence].
      exfalso. destruct N as (s & I & S). unfold spelt in S. cbn in I. repeat (destruct I as [I|I]; [inversion I; subst; discriminate|]). destruct I.
    + intros v V NE. rewrite (search_value ps _ v _ ND V) in R. destruct v; [congruence|]. destruct (reducer_of _); congruence.
Qed.
(** But databases are merged before the other parameters are looked at: a rejected call has changed the database. *)
Theorem C59_synchronize_refuted : forall f k o l,
  let p := mkPoly (Some (mkInst Skip f k o l)) true in
  synchronize_advanced (fun _ => SUCCESS) [(txt "merge", txt "a.tks:b.tks"); (txt "reducer", txt "Remove")] p = (INVALID_ARGUMENT_ERROR, [AMerge (txt "a.tks"); AMerge (txt "b.tks")]) /\
  synchronize_advanced (fun _ => SUCCESS) [(txt "merge", txt "a.tks:b.tks"); (txt "redcer", txt "Last")] p = (INVALID_ARGUMENT_ERROR, [AMerge (txt "a.tks"); AMerge (txt "b.tks")]).
Proof. intros. split; reflexivity. Qed.
(** RestoreDatabase takes the class of the name, or of the extension of the path, if it is one with a file of its own. *)
Definition on_file (c : dbclass) : Prop := c = Hash \/ c = Tree \/ c = Skip.
Theorem C59_restore : forall path name c,
  (named doc_classes name c \/ (name = [] /\ exists dir base ext, path = dir ++ base ++ dot :: ext /\ (dir = [] \/ exists d, dir = d ++ [sep]) /\ ~ In sep base /\ named doc_extensions ext c)) ->
  (on_file c -> restore_class path name = Some c) /\ (~ on_file c -> restore_class path name = None).
Proof.
  intros path name c H.
  assert (X : match lower_case name with [] => guess path | n => pick n class_names end = Some c).
  { destruct H as [(s & I & S)|(-> & H)].
    - unfold spelt in S. rewrite S. cbn in I. repeat (destruct I as [I|I]; [inversion I; subst; reflexivity|]). destruct I.
    - assert (W : wanted_class path (off_log []) = Some c) by (apply (wanted_asked (fun _ => SUCCESS) (fun _ => 0%Z)); [apply NoDup_nil|right; split; [intros []|exact H]]).
      change (match guess path with Some c => Some c | None => match path with [] => Some Tiny | _ => None end end = Some c) in W. change (lower_case []) with (@nil N). cbv iota. destruct (guess path) eqn:G; [exact W|]. destruct path; [|discriminate].
      destruct H as (dir & base & ext & E & _). destruct dir, base; discriminate. }
  unfold restore_class. rewrite X. unfold on_file. destruct c; split; intros; try reflexivity; try (exfalso; intuition discriminate); exfalso; tauto.
Qed.
Example C59_admin_case :
  let p := mkPoly (Some (mkInst Skip MemPara None true false)) true in
  synchronize_advanced (fun _ => SUCCESS) [(txt "merge", txt "a.tks::b.tks"); (txt "reducer", txt "reduceToLAST")] p =
    (SUCCESS, [AMerge (txt "a.tks"); AMerge (txt "b.tks"); ASync Skip (Some RLast)]) /\
  rebuild_advanced (fun _ => SUCCESS) [(txt "max_level", txt "3"); (txt "sync_hard", txt "true")] p = (SUCCESS, [ARebuild Skip None]) /\
  rebuild_advanced (fun _ => SUCCESS) [(txt "num_buckets", txt "3")] p = (INVALID_ARGUMENT_ERROR, []) /\
  restore_class (txt "/d.x/Y.TKT") [] = Some Tree /\ restore_class (txt "/d.x/Y.TKT") (txt "SkipDBM") = Some Skip /\ restore_class (txt "y.tkmb") [] = None.
Proof. repeat split; reflexivity. Qed.
Print Assumptions C59_rebuild.
Print Assumptions C59_rebuild_comparator_refuted.
Print Assumptions C59_synchronize.
Print Assumptions C59_synchronize_refuted.
Print Assumptions C59_restore.
