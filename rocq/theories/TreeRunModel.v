(** TreeDBM on its pages: the algorithms of BtreeModel.v as sequences of operations on nodes, and a machine that runs them on the cache of
    TreePageModel.v, above a map of pages or the file of a HashDBM, with nodes saved and evicted between any two operations.

    Source: /repo/tkrzw_dbm_tree.cc.  Each function below is the function of the same name in BtreeModel.v with every access to the heap of
    nodes made an operation. *)
From Coq Require Import List NArith ZArith Bool Lia Arith.
Import ListNotations.
From Verif Require Import Bytes DbmModel StatusModel OmapHist BtreeModel TreePageModel TreeReopen.
Open Scope nat_scope.

(** A sequence of operations on nodes: LoadLeafNode and LoadInnerNode (tkrzw_dbm_tree.cc:1285-1337, 1440-1484), a change of a node and its mark "dirty"
    (e.g. 2029, 2042, 2067), a new node added to the cache (241-245, 264-268; e.g. 1674, 1736), RemoveLeafNode and RemoveInnerNode (1377-1390, 1519-1532).
    [Size]: how many nodes have been created, by which loops over the leaves are bounded.
    Simplified: nodes are created with their contents, and a node is loaded anew before it is changed (in the code it is held meanwhile). *)
Inductive prog (A : Type) :=
| Ret (a : A)
| Bad (e : ub)
| Load (x : id) (k : node -> prog A)
| Write (x : id) (n : node) (k : prog A)
| New (n : node) (k : id -> prog A)
| Drop (x : id) (k : prog A)
| Size (k : nat -> prog A).
Arguments Ret {A}. Arguments Bad {A}. Arguments Load {A}. Arguments Write {A}. Arguments New {A}. Arguments Drop {A}. Arguments Size {A}.
Fixpoint pb {A B} (p : prog A) (f : A -> prog B) : prog B :=
  match p with
  | Ret a => f a
  | Bad e => Bad e
  | Load x k => Load x (fun n => pb (k n) f)
  | Write x n k => Write x n (pb k f)
  | New n k => New n (fun y => pb (k y) f)
  | Drop x k => Drop x (pb k f)
  | Size k => Size (fun c => pb (k c) f)
  end.
Notation "x <- e ;; f" := (pb e (fun x => f)) (at level 61, e at next level, right associativity).
Notation "' p <- e ;; f" := (pb e (fun p => f)) (at level 61, p pattern, e at next level, right associativity).
Definition lift {A} (r : res A) : prog A := match r with Ok a => Ret a | Ub e => Bad e end.

Definition p_leaf (x : id) : prog (option id * option id * list rec) :=
  Load x (fun n => match n with Leaf p q rs => Ret (p, q, rs) | Inner _ _ => Bad BadAccess end).
Definition p_inner (x : id) : prog (id * list (bytes * id)) :=
  Load x (fun n => match n with Inner e ls => Ret (e, ls) | Leaf _ _ _ => Bad BadAccess end).
(** The next leaf's link back, tkrzw_dbm_tree.cc:1675-1683 and 1819-1828; nothing is done if there is none. *)
Definition p_set_prev (ox p : option id) : prog unit :=
  match ox with None => Ret tt | Some x => '(_, n, rs) <- p_leaf x ;; Write x (Leaf p n rs) (Ret tt) end.
(** The previous leaf's link, tkrzw_dbm_tree.cc:1854-1863. *)
Definition p_set_next (ox n : option id) : prog unit :=
  match ox with None => Ret tt | Some x => '(p, _, rs) <- p_leaf x ;; Write x (Leaf p n rs) (Ret tt) end.
Definition p_opt {A B} (o : option A) (f : A -> prog B) : prog (option B) := match o with None => Ret None | Some a => b <- f a ;; Ret (Some b) end.

Section Run.
  Variable cmp : bytes -> bytes -> comparison.
  Variables divp mrgp : list rec -> bool.
  Variable weight : list rec -> N.
  Variable how : leafcf.
  Variables max_branches level_max : nat.
  Variable choose : list (id * bytes) -> nat.

  (** The members of TreeDBMImpl besides the nodes are kept in the record of BtreeModel.v, whose heap and counter are not used here. *)
  Definition full (v : bdb) (h : heap) (c : id) : bdb := mkB h c (b_level v) (b_root v) (b_first v) (b_last v) (b_reorg v) (b_num v) (b_its v).
  Definition with_num (v : bdb) (num : Z) : bdb := mkB (b_h v) (b_fresh v) (b_level v) (b_root v) (b_first v) (b_last v) (b_reorg v) num (b_its v).
  Definition with_tree (v : bdb) (level : nat) (root first last : id) (its : nat -> iter) : bdb :=
    mkB (b_h v) (b_fresh v) level root first last (b_reorg v) (b_num v) its.

  (** SearchTree, tkrzw_dbm_tree.cc:1582-1602. *)
  Fixpoint p_down (n : nat) (x : id) (key : bytes) : prog id :=
    match n with O => Ret x | S m => '(e, ls) <- p_inner x ;; p_down m (pick cmp e ls key) key end.
  Definition p_search (v : bdb) (key : bytes) : prog id := p_down (b_level v - 1) (b_root v) key.
  (** TraceTree, tkrzw_dbm_tree.cc:1604-1630. *)
  Fixpoint p_path (n : nat) (x : id) (key : bytes) (hist : list id) : prog (list id) :=
    match n with O => Ret hist | S m => '(e, ls) <- p_inner x ;; p_path m (pick cmp e ls key) key (x :: hist) end.
  Definition p_trace (v : bdb) (key : bytes) : prog (list id) :=
    if Nat.leb (b_level v - 1) level_max then p_path (b_level v - 1) (b_root v) key [] else Bad DeepTree.

  (** DivideNodes, tkrzw_dbm_tree.cc:1667-1763; the loop over the path: 1715-1754.  Simplified: in the code the new leaf is added to the cache
      before the next leaf is linked to it, and filled after that. *)
  Fixpoint p_div_up (hist : list id) (level : nat) (root heir child : id) (key : bytes) : prog (nat * id) :=
    match hist with
    | [] => New (Inner heir (add_link cmp [] key child)) (fun y => Ret (S level, y))
    | x :: hist' =>
        '(e, ls) <- p_inner x ;;
        let ls1 := add_link cmp ls key child in
        if Nat.leb (length ls1) max_branches then Write x (Inner e ls1) (Ret (level, root))
        else
          let m := Nat.div2 (length ls1) in
          match skipn m ls1 with
          | [] => Bad BadAccess
          | (mk, mc) :: r =>
              let new_links := fold_left (fun l kc => add_link cmp l (fst kc) (snd kc)) r [] in
              New (Inner mc new_links) (fun y =>
              Write x (Inner e (firstn (length ls1 - S (length new_links)) ls1)) (p_div_up hist' level root x y mk))
          end
    end.
  Definition p_divide (v : bdb) (x : id) (key : bytes) : prog bdb :=
    hist <- p_trace v key ;;
    '(p, n, rs) <- p_leaf x ;;
    Size (fun y =>
    let m := Nat.div2 (length rs) in
    let rs1 := firstn m rs in let rs2 := skipn m rs in
    match rs2 with
    | [] => Bad EmptyFront
    | (mk, _) :: _ =>
        _ <- p_set_prev n (Some y) ;;
        New (Leaf (Some x) n rs2) (fun _ =>
        Write x (Leaf p (Some y) rs1) (
        '(level, root) <- p_div_up hist (b_level v) (b_root v) x y mk ;;
        Ret (with_tree v level root (b_first v) (if Nat.eqb (b_last v) x then y else b_last v) (fun j => div_iter cmp x y mk (b_its v j)))))
    end).

  (** MergeNodes, tkrzw_dbm_tree.cc:1765-1962; the loop over the path: 1881-1960. *)
  Fixpoint p_merge_up (x : id) (hist : list id) (level : nat) (root : id) : prog (nat * id) :=
    '(e, ls) <- p_inner x ;;
    if Nat.ltb (length ls) (Nat.div2 max_branches) then
      match hist with
      | [] => match ls with [] => Drop x (Ret (level - 1, e)) | _ => Ret (level, root) end
      | par :: hist' =>
          '(pe, pls) <- p_inner par ;;
          let '(prev, ikey, next) := sibs pe pls x in
          np <- p_opt prev (fun q => a <- p_inner q ;; Ret (q, a)) ;;
          nn <- p_opt next (fun '(nk, z) => a <- p_inner z ;; Ret (nk, z, a)) ;;
          match np, nn with
          | Some (q, (qe, qls)), None =>
              Write q (Inner qe (qls ++ (ikey, e) :: ls)) (Write par (Inner pe (join_prev pls x)) (Drop x (p_merge_up par hist' level root)))
          | Some (q, (qe, qls)), Some (nk, z, (ze, zls)) =>
              if Nat.leb (length qls) (length zls) then
                Write q (Inner qe (qls ++ (ikey, e) :: ls)) (Write par (Inner pe (join_prev pls x)) (Drop x (p_merge_up par hist' level root)))
              else
                Write x (Inner e (ls ++ (nk, ze) :: zls)) (Write par (Inner pe (join_prev pls z)) (Drop z (p_merge_up par hist' level root)))
          | None, Some (nk, z, (ze, zls)) =>
              Write x (Inner e (ls ++ (nk, ze) :: zls)) (Write par (Inner pe (join_prev pls z)) (Drop z (p_merge_up par hist' level root)))
          | None, None => p_merge_up par hist' level root
          end
      end
    else Ret (level, root).
  Definition p_merge (v : bdb) (x : id) (key : bytes) : prog bdb :=
    hist <- p_trace v key ;;
    match hist with
    | [] => Bad BadAccess
    | par :: hist' =>
        '(pe, pls) <- p_inner par ;;
        '(p, n, rs) <- p_leaf x ;;
        let '(prev, _, next) := sibs pe pls x in
        np <- p_opt prev (fun q => a <- p_leaf q ;; Ret (q, a)) ;;
        nn <- p_opt next (fun '(_, z) => a <- p_leaf z ;; Ret (z, a)) ;;
        let into_prev := match np, nn with
          | Some (_, (_, _, qrs)), Some (_, (_, _, zrs)) => (weight qrs <=? weight zrs)%N
          | Some _, None => true
          | None, _ => false
          end in
        match np, nn, into_prev with
        | Some (q, (qp, _, qrs)), _, true =>
            Write q (Leaf qp n (qrs ++ rs)) (
            _ <- match n with None => Ret tt | Some _ => p_set_prev (match nn with Some (z, _) => Some z | None => n end) (Some q) end ;;
            Write par (Inner pe (join_prev pls x)) (Drop x (
            '(level, root) <- p_merge_up par hist' (b_level v) (b_root v) ;;
            Ret (with_tree v level root (b_first v) (if Nat.eqb (b_last v) x then q else b_last v) (fun j => move_iter x q (b_its v j))))))
        | _, Some (z, (_, zn, zrs)), _ =>
            Write z (Leaf p zn (rs ++ zrs)) (
            _ <- match p with None => Ret tt | Some _ => p_set_next (match np with Some (q, _) => Some q | None => p end) (Some z) end ;;
            '(pe', pls') <- lift (join_next pe pls x z) ;;
            Write par (Inner pe' pls') (Drop x (
            '(level, root) <- p_merge_up par hist' (b_level v) (b_root v) ;;
            Ret (with_tree v level root (if Nat.eqb (b_first v) x then z else b_first v) (b_last v) (fun j => move_iter x z (b_its v j))))))
        | _, _, _ =>
            '(level, root) <- p_merge_up par hist' (b_level v) (b_root v) ;;
            Ret (with_tree v level root (b_first v) (b_last v) (b_its v))
        end
    end.

  (** ReorganizeTree, tkrzw_dbm_tree.cc:1632-1657. *)
  Fixpoint p_reorganize_loop (fuel : nat) (v : bdb) (done : list id) : prog bdb :=
    match fuel with
    | O => Ret v
    | S fu =>
        let l := b_reorg v in
        let i := Nat.modulo (choose l) (length l) in
        match nth_error l i with
        | None => Ret v
        | Some (x, k) =>
            let v1 := set_reorg v (remove_nth i l) in
            if existsb (Nat.eqb x) done then p_reorganize_loop fu v1 done
            else
              '(_, _, rs) <- p_leaf x ;;
              v2 <- (if divp rs then p_divide v1 x k else if mrgp rs && negb (Nat.eqb x (b_root v)) then p_merge v1 x k else Ret v1) ;;
              p_reorganize_loop fu v2 (x :: done)
        end
    end.
  Definition p_reorganize (v : bdb) : prog bdb := p_reorganize_loop (length (b_reorg v)) v [].

  (** ProcessImpl, tkrzw_dbm_tree.cc:2006-2075. *)
  Definition p_impl {S} (v : bdb) (x : id) (key : bytes) (pr : proc S) (w : bool) (st : S) : prog (bdb * S) :=
    '(p, n, rs) <- p_leaf x ;;
    let '(l1, l2) := lower cmp key rs in
    let miss :=
      let '(a, st1) := on_empty pr key st in
      match a with
      | ASet val =>
          if w then
            let rs1 := l1 ++ (key, val) :: l2 in
            Write x (Leaf p n rs1) (
            let v1 := with_num v (b_num v + 1) in
            v2 <- (if divp rs1 then lift (note v1 x rs1) else Ret v1) ;; Ret (v2, st1))
          else Ret (v, st1)
      | _ => Ret (v, st1)
      end in
    match l2 with
    | (k, val) :: r =>
        if ltb cmp key k then miss
        else
          let '(a, st1) := on_full pr k val st in
          if negb w then Ret (v, st1) else
          match a with
          | ANoop => Ret (v, st1)
          | ARemove =>
              let rs1 := l1 ++ r in
              Write x (Leaf p n rs1) (
              let v1 := with_num v (b_num v - 1) in
              v2 <- (if mrgp rs1 && negb (Nat.eqb x (b_root v)) then lift (note_del how v1 x rs1 k) else Ret v1) ;; Ret (v2, st1))
          | ASet val1 =>
              let rs1 := l1 ++ (k, val1) :: r in
              Write x (Leaf p n rs1) (
              let v1 := with_num v (b_num v) in
              v2 <- (if h_check how then
                       if (blen val <? blen val1)%N then (if divp rs1 then lift (note v1 x rs1) else Ret v1)
                       else if (blen val1 <? blen val)%N then (if mrgp rs1 && negb (Nat.eqb x (b_root v)) then lift (note v1 x rs1) else Ret v1)
                       else Ret v1
                     else Ret v1) ;; Ret (v2, st1))
          end
    | [] => miss
    end.
  (** Process, tkrzw_dbm_tree.cc:553-593. *)
  Definition p_process {S} (v : bdb) (key : bytes) (pr : proc S) (w : bool) (st : S) : prog (bdb * S) :=
    v1 <- (if w then p_reorganize v else Ret v) ;;
    x <- p_search v1 key ;;
    p_impl v1 x key pr w st.
  (** ProcessMulti, tkrzw_dbm_tree.cc:595-655. *)
  Fixpoint p_search_all (v : bdb) (keys : list bytes) : prog (list id) :=
    match keys with [] => Ret [] | k :: r => x <- p_search v k ;; xs <- p_search_all v r ;; Ret (x :: xs) end.
  Fixpoint p_impl_all {S} (v : bdb) (xs : list id) (l : list (bytes * proc S)) (w : bool) (st : S) : prog (bdb * S) :=
    match xs, l with
    | x :: xs', (k, p) :: l' => '(v1, st1) <- p_impl v x k p w st ;; p_impl_all v1 xs' l' w st1
    | _, _ => Ret (v, st)
    end.
  Definition p_multi {S} (v : bdb) (l : list (bytes * proc S)) (w : bool) (st : S) : prog (bdb * S) :=
    v1 <- (if w then p_reorganize v else Ret v) ;;
    xs <- p_search_all v1 (map fst l) ;;
    p_impl_all v1 xs l w st.
  (** ProcessFirst, tkrzw_dbm_tree.cc:657-712. *)
  Fixpoint p_first_from {S} (fuel : nat) (v : bdb) (ox : option id) (pr : proc S) (w : bool) (st : S) : prog (bool * bdb * S) :=
    match fuel, ox with
    | _, None => Ret (false, v, st)
    | O, _ => Bad BadAccess
    | S fu, Some x =>
        '(_, n, rs) <- p_leaf x ;;
        match rs with
        | (k, _) :: _ => '(v1, st1) <- p_impl v x k pr w st ;; Ret (true, v1, st1)
        | [] => p_first_from fu v n pr w st
        end
    end.
  Definition p_first {S} (v : bdb) (pr : proc S) (w : bool) (st : S) : prog (bool * bdb * S) :=
    v1 <- (if w then p_reorganize v else Ret v) ;;
    Size (fun c => p_first_from c v1 (Some (b_first v1)) pr w st).
  (** ProcessEach, tkrzw_dbm_tree.cc:714-772. *)
  Fixpoint p_impl_keys {S} (v : bdb) (x : id) (keys : list bytes) (pr : proc S) (st : S) : prog (bdb * S) :=
    match keys with [] => Ret (v, st) | k :: r => '(v1, st1) <- p_impl v x k pr true st ;; p_impl_keys v1 x r pr st1 end.
  Fixpoint p_each_from {S} (fuel : nat) (v : bdb) (ox : option id) (pr : proc S) (w : bool) (st : S) : prog (bdb * S) :=
    match fuel, ox with
    | _, None => Ret (v, st)
    | O, _ => Bad BadAccess
    | S fu, Some x =>
        '(_, _, rs) <- p_leaf x ;;
        '(v1, st1) <- (if w then p_impl_keys v x (map fst rs) pr st else Ret (v, show_all rs pr st)) ;;
        '(_, n, _) <- p_leaf x ;;
        p_each_from fu v1 n pr w st1
    end.
  Definition p_each {S} (v : bdb) (pr : proc S) (w : bool) (st : S) : prog (bdb * S) :=
    v1 <- (if w then p_reorganize v else Ret v) ;;
    Size (fun c => p_each_from c v1 (Some (b_first v1)) pr w st).

  (** SetPositionFirst and SetPositionLast, tkrzw_dbm_tree.cc:2290-2326. *)
  Fixpoint p_pos_first (fuel : nat) (ox : option id) : prog iter :=
    match fuel, ox with
    | _, None => Ret None
    | O, _ => Bad BadAccess
    | S fu, Some x => '(_, n, rs) <- p_leaf x ;; match rs with (k, _) :: _ => Ret (Some (k, Some x)) | [] => p_pos_first fu n end
    end.
  Fixpoint p_pos_last (fuel : nat) (ox : option id) : prog iter :=
    match fuel, ox with
    | _, None => Ret None
    | O, _ => Bad BadAccess
    | S fu, Some x => '(p, _, rs) <- p_leaf x ;; match rev rs with (k, _) :: _ => Ret (Some (k, Some x)) | [] => p_pos_last fu p end
    end.
  Definition p_home (v : bdb) (key : bytes) (ox : option id) : prog id := match ox with Some x => Ret x | None => p_search v key end.
  (** NextImpl, tkrzw_dbm_tree.cc:2335-2376. *)
  Definition p_next (v : bdb) (key : bytes) (ox : option id) : prog iter :=
    x <- p_home v key ox ;;
    '(_, n, rs) <- p_leaf x ;;
    match snd (upper cmp key rs) with (k, _) :: _ => Ret (Some (k, Some x)) | [] => Size (fun c => p_pos_first c n) end.
  (** PreviousImpl, tkrzw_dbm_tree.cc:2378-2422. *)
  Definition p_prev (v : bdb) (key : bytes) (ox : option id) : prog iter :=
    x <- p_home v key ox ;;
    '(p, _, rs) <- p_leaf x ;;
    match snd (lower cmp key rs), rev (fst (lower cmp key rs)) with
    | _ :: _, (k, _) :: _ => Ret (Some (k, Some x))
    | _, _ => Size (fun c => p_pos_last c p)
    end.
  (** SyncPosition, tkrzw_dbm_tree.cc:2424-2474. *)
  Definition p_sync (v : bdb) (key : bytes) (ox : option id) : prog iter :=
    x <- p_home v key ox ;;
    '(_, n, rs) <- p_leaf x ;;
    match snd (lower cmp key rs) with (k, _) :: _ => Ret (Some (k, Some x)) | [] => Size (fun c => p_pos_first c n) end.
  (** The loops of JumpLower and JumpUpper, tkrzw_dbm_tree.cc:2178-2245. *)
  Fixpoint p_lower_loop (fuel : nat) (v : bdb) (key : bytes) (inclusive : bool) (i : iter) : prog iter :=
    match fuel, i with
    | _, None => Ret None
    | O, _ => Bad BadAccess
    | S fu, Some (k, ox) =>
        match cmp k key with
        | Lt => Ret i
        | Eq => if inclusive then Ret i else i1 <- p_prev v key ox ;; p_lower_loop fu v key inclusive i1
        | Gt => i1 <- p_prev v key ox ;; p_lower_loop fu v key inclusive i1
        end
    end.
  Fixpoint p_upper_loop (fuel : nat) (v : bdb) (key : bytes) (inclusive : bool) (i : iter) : prog iter :=
    match fuel, i with
    | _, None => Ret None
    | O, _ => Bad BadAccess
    | S fu, Some (k, ox) =>
        match cmp k key with
        | Gt => Ret i
        | Eq => if inclusive then Ret i else i1 <- p_next v key ox ;; p_upper_loop fu v key inclusive i1
        | Lt => i1 <- p_next v key ox ;; p_upper_loop fu v key inclusive i1
        end
    end.
  (** Process of an iterator, tkrzw_dbm_tree.cc:2265-2279, 2476-2552. *)
  Definition p_it_process {S} (v : bdb) (j : nat) (pr : proc S) (w : bool) (st : S) : prog (code * bdb * S) :=
    v1 <- (if w then p_reorganize v else Ret v) ;;
    match b_its v1 j with
    | None => Ret (NOT_FOUND_ERROR, v1, st)
    | Some (key, ox) =>
        i <- p_sync v1 key ox ;;
        let v2 := set_it v1 j i in
        match i with
        | Some (k, Some x) =>
            if w then '(v3, st1) <- p_impl v2 x k pr true st ;; Ret (SUCCESS, v3, st1)
            else
              '(_, _, rs) <- p_leaf x ;;
              match snd (lower cmp k rs) with (k1, val) :: _ => Ret (SUCCESS, v2, snd (on_full pr k1 val st)) | [] => Bad BadAccess end
        | _ => Ret (NOT_FOUND_ERROR, v2, st)
        end
    end.

  Section Calls.
    Variable S : Type.
    (** One call, as b_call of BtreeHist.v.  Clear, which makes a new tree with ids from the start, is left out. *)
    Definition p_call (c : ocall S) (v : bdb) (st : S) : prog (code * bdb * S) :=
      match c with
      | KProcess k p w => '(v', st') <- p_process v k p w st ;; Ret (SUCCESS, v', st')
      | KAppend k val d => '(v', _) <- p_process v k (pr_append val d) true tt ;; Ret (SUCCESS, v', st)
      | KMulti l w => '(v', st') <- p_multi v l w st ;; Ret (SUCCESS, v', st')
      | KFirst p w => '(c, v', st') <- p_first v p w st ;; Ret (if c then SUCCESS else NOT_FOUND_ERROR, v', st')
      | KEach p w => '(v', st') <- p_each v p w st ;; Ret (SUCCESS, v', st')
      | KClear => Bad BadAccess
      | KItFirst j => Size (fun c => i <- p_pos_first c (Some (b_first v)) ;; Ret (SUCCESS, set_it v j i, st))
      | KItLast j => Size (fun c => i <- p_pos_last c (Some (b_last v)) ;; Ret (SUCCESS, set_it v j i, st))
      | KItJump j k => Ret (SUCCESS, set_it v j (Some (k, None)), st)
      | KItLower j k inc =>
          i <- p_sync v k None ;;
          i1 <- match i with None => Size (fun c => p_pos_last c (Some (b_last v))) | Some _ => Ret i end ;;
          i2 <- p_lower_loop 2 v k inc i1 ;;
          Ret (SUCCESS, set_it v j i2, st)
      | KItUpper j k inc =>
          i <- p_sync v k None ;;
          i2 <- p_upper_loop 2 v k inc i ;;
          Ret (SUCCESS, set_it v j i2, st)
      | KItNext j => match b_its v j with None => Ret (NOT_FOUND_ERROR, v, st) | Some (k, ox) => i <- p_next v k ox ;; Ret (SUCCESS, set_it v j i, st) end
      | KItPrev j => match b_its v j with None => Ret (NOT_FOUND_ERROR, v, st) | Some (k, ox) => i <- p_prev v k ox ;; Ret (SUCCESS, set_it v j i, st) end
      | KItProcess j p w => p_it_process v j p w st
      end.
    Fixpoint p_calls (cs : list (ocall S)) (v : bdb) (st : S) : prog (list code * bdb * S) :=
      match cs with
      | [] => Ret ([], v, st)
      | c :: r => '(cd, v1, st1) <- p_call c v st ;; '(cds, v2, st2) <- p_calls r v1 st1 ;; Ret (cd :: cds, v2, st2)
      end.
    (** Open of a new database makes a leaf, tkrzw_dbm_tree.cc:471-476; then the calls. *)
    Definition p_session (cs : list (ocall S)) (st : S) : prog (list code * bdb * S) :=
      New (Leaf None None []) (fun x => p_calls cs (mkB (fun _ => None) 0 1 x x x [] 0 (fun _ => None)) st).
  End Calls.
End Run.

(** * The ids of pages *)
(** The nodes of a session are numbered in the order in which they are created; [ks] says which of them are inner nodes. *)
Definition is_inn (n : node) : bool := match n with Inner _ _ => true | Leaf _ _ _ => false end.
Definition kind_of (ks : list bool) (y : id) : bool := nth y ks false.
Definition inners_before (ks : list bool) (y : id) : nat := count_occ bool_dec (firstn y ks) true.
(** "num_leaf_nodes_++ + LEAF_NODE_ID_BASE" and "num_inner_nodes_++ + INNER_NODE_ID_BASE", tkrzw_dbm_tree.cc:51-52, 244, 267.
    Simplified: what comes after the last id of each range is some other number of more than six bytes, which no page can have. *)
Definition leaf_id (k : nat) : N := let n := (N.of_nat k + 1)%N in if (n <? inner_base)%N then n else (2^49 + 2 * n)%N.
Definition inner_id (k : nat) : N := let n := (inner_base + N.of_nat k)%N in if (n <? 2^48)%N then n else (2^49 + 2 * n + 1)%N.
Definition pid (ks : list bool) (y : id) : N := if kind_of ks y then inner_id (inners_before ks y) else leaf_id (y - inners_before ks y).
(** The node of an id: the inverse. *)
Definition unleaf (p : N) : nat := N.to_nat ((if (p <? inner_base)%N then p else (p - 2^49) / 2) - 1)%N.
Definition unpid (ks : list bool) (p : N) : id :=
  match find (fun y => N.eqb (pid ks y) p) (seq 0 (length ks)) with Some y => y | None => unleaf p + inners_before ks (length ks) end.
Definition ounpid (ks : list bool) (p : N) : option id := if N.eqb p 0 then None else Some (unpid ks p).
Definition of_page (ks : list bool) (n : pnode) : node :=
  match n with
  | PLeaf p q rs => Leaf (ounpid ks p) (ounpid ks q) rs
  | PInner h ls => Inner (unpid ks h) (map (fun kc => (fst kc, unpid ks (snd kc))) ls)
  end.

(** * The machine *)
Section Machine.
  Variable ks : list bool.
  Variable St : Type.
  (** One operation on the cache: [c_step], or [f_step] with a file. *)
  Variable stp : cop -> St -> pres (option pnode * St).
  (** What is saved (false) or evicted (true) before the operation of each number: AdjustCaches (tkrzw_dbm_tree.cc:2077-2124), Synchronize and
      FlushLeafCacheOne, FlushInnerCacheOne; anything at any time here. *)
  Variable sched : nat -> list (bool * N).
  Definition flush_op (bx : bool * N) : cop := if fst bx then CEvict (snd bx) else CSave (snd bx).
  Definition flushes (t : nat) : list cop := map flush_op (sched t).
  Fixpoint go (os : list cop) (s : St) : pres (list (option pnode) * St) :=
    match os with
    | [] => POk ([], s)
    | o :: r => pbind (stp o s) (fun '(a, s1) => pbind (go r s1) (fun '(l, s2) => POk (a :: l, s2)))
    end.
  (** How a program ends: with a value, the number of nodes created, that of operations done and the state; in undefined behaviour; in a page that
      cannot be loaded, saved or removed. *)
  Inductive mout (A : Type) := Fine (a : A) (c t : nat) (s : St) | Wrong (e : ub) | Failed.
  Definition act (t : nat) (o : cop) (s : St) : pres (option pnode * St) := pbind (go (flushes t) s) (fun '(_, s1) => stp o s1).
  (** A program on the cache, with all the operations done. *)
  Fixpoint mi {A} (p : prog A) (c t : nat) (s : St) : mout A * list cop :=
    let with_log (o : cop) (r : mout A * list cop) := (fst r, flushes t ++ o :: snd r) in
    match p with
    | Ret a => (Fine A a c t s, [])
    | Bad e => (Wrong A e, [])
    | Size k => mi (k c) c t s
    | Load x k =>
        let o := CLoad (pid ks x) in
        with_log o match act t o s with POk (Some n, s1) => mi (k (of_page ks n)) c (S t) s1 | _ => (Failed A, []) end
    | Write x n k =>
        let o := CWrite (pid ks x) (page_of (pid ks) n) in
        with_log o match act t o s with POk (_, s1) => mi k c (S t) s1 | _ => (Failed A, []) end
    | New n k =>
        (** The kind is the one that [ks] says. *)
        if Bool.eqb (kind_of ks c) (is_inn n) then
          let o := CNew (pid ks c) (page_of (pid ks) n) in
          with_log o match act t o s with POk (_, s1) => mi (k c) (S c) (S t) s1 | _ => (Failed A, []) end
        else (Failed A, [])
    | Drop x k =>
        let o := CRemove (pid ks x) in
        with_log o match act t o s with POk (_, s1) => mi k c (S t) s1 | _ => (Failed A, []) end
    end.
End Machine.
Arguments Fine {St A}. Arguments Wrong {St A}. Arguments Failed {St A}.
