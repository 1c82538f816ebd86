(** The B+ tree of BabyDBM and TreeDBM.

    Sources: /repo/tkrzw_dbm_baby.cc, /repo/tkrzw_dbm_tree.cc.

    Both classes run the same algorithms on leaf nodes (records, links to the previous and the next leaf) and inner nodes
    (an "heir" and links, each with a key and a child): BabyDBM through pointers, TreeDBM through page ids.  The model
    has one heap of nodes and is parametric in what differs: when a leaf is to be divided or merged and how leaves are
    weighed.  An access to a node that is not there, or is of the other kind, is undefined behaviour, and so are
    front() of an empty vector and a path longer than the array that holds it.

    Simplified: std::lower_bound and std::upper_bound are the position where the predicate changes, which is what they
    return on sorted vectors; addresses are never reused; records are pairs of byte strings (the memory blocks of
    BabyRecord and TreeRecord, their int32_t sizes, locks and update logs are left out). *)
From Coq Require Import List NArith ZArith Bool Lia Arith.
Import ListNotations.
From Verif Require Import Bytes DbmModel StatusModel.

Definition id := nat.
Definition rec := (bytes * bytes)%type.
(** BabyLeafNode and BabyInnerNode, tkrzw_dbm_baby.cc:96-116; TreeLeafNode and TreeInnerNode, tkrzw_dbm_tree.cc:59-86. *)
Inductive node := Leaf (prev next : option id) (rs : list rec) | Inner (heir : id) (links : list (bytes * id)).
(** Undefined behaviour: front() of an empty vector, an overrun of the array "hist", anything else. *)
Inductive ub := EmptyFront | DeepTree | BadAccess.
Inductive res (A : Type) := Ok (a : A) | Ub (e : ub).
Arguments Ok {A}. Arguments Ub {A}.
Definition bind {A B} (x : res A) (f : A -> res B) : res B := match x with Ok a => f a | Ub e => Ub e end.
Notation "x <~ e ;; f" := (bind e (fun x => f)) (at level 61, e at next level, right associativity).
Notation "' p <~ e ;; f" := (bind e (fun p => f)) (at level 61, p pattern, e at next level, right associativity).

Definition heap := id -> option node.
Definition updn (h : heap) (x : id) (n : option node) : heap := fun y => if Nat.eqb y x then n else h y.
Definition leaf_at (h : heap) (x : id) : res (option id * option id * list rec) :=
  match h x with Some (Leaf p n rs) => Ok (p, n, rs) | _ => Ub BadAccess end.
Definition inner_at (h : heap) (x : id) : res (id * list (bytes * id)) :=
  match h x with Some (Inner e ls) => Ok (e, ls) | _ => Ub BadAccess end.
Definition set_prev (h : heap) (ox : option id) (p : option id) : res heap :=
  match ox with None => Ok h | Some x => '(_, n, rs) <~ leaf_at h x ;; Ok (updn h x (Some (Leaf p n rs))) end.
Definition set_next (h : heap) (ox : option id) (n : option id) : res heap :=
  match ox with None => Ok h | Some x => '(p, _, rs) <~ leaf_at h x ;; Ok (updn h x (Some (Leaf p n rs))) end.

(** The longest prefix whose keys satisfy [p], and the rest. *)
Fixpoint split_at {A} (p : bytes -> bool) (l : list (bytes * A)) : list (bytes * A) * list (bytes * A) :=
  match l with
  | [] => ([], [])
  | (k, a) :: r => if p k then let '(x, y) := split_at p r in ((k, a) :: x, y) else ([], l)
  end.

(** key_ptr_ with key_size_ (None: nullptr) and leaf_node_ (leaf_id_ in TreeDBM), tkrzw_dbm_baby.cc:213-217. *)
Definition iter := option (bytes * option id).

(** [h_check]: whether ProcessImpl checks a leaf after a change of a value: only in TreeDBM, tkrzw_dbm_tree.cc:2045-2053.
    [h_strict]: what "records.front()" is just after the last record has been erased (tkrzw_dbm_baby.cc:1090-1094,
    tkrzw_dbm_tree.cc:2027-2033).  By the language it is undefined: strict.  Without assertions in the library it reads
    the slot of the erased element, whose record is freed only two lines later: not strict. *)
Record leafcf := mkHow { h_check : bool; h_strict : bool }.

Section Btree.
  (** The key comparator. *)
  Variable cmp : bytes -> bytes -> comparison.
  (** CheckLeafNodeToDivide and CheckLeafNodeToMerge without the comparison with the root: tkrzw_dbm_baby.cc:733-739, tkrzw_dbm_tree.cc:1659-1665. *)
  Variables divp mrgp : list rec -> bool.
  (** What MergeNodes compares of two leaves: the number of records in BabyDBM, the page size in TreeDBM. *)
  Variable weight : list rec -> N.
  Variable how : leafcf.
  (** MAX_INNER_NODE_BRANCHES (max_branches_) and TREE_LEVEL_MAX. *)
  Variables max_branches level_max : nat.
  (** Which element AtomicSet::Pop takes, tkrzw_containers.h:1693-1706: the least one, which depends on addresses; any here. *)
  Variable choose : list (id * bytes) -> nat.

  Definition ltb (a b : bytes) : bool := match cmp a b with Lt => true | _ => false end.
  Definition lower {A} (k : bytes) (l : list (bytes * A)) := split_at (fun x => ltb x k) l.
  Definition upper {A} (k : bytes) (l : list (bytes * A)) := split_at (fun x => negb (ltb k x)) l.

  (** BabyDBMImpl, tkrzw_dbm_baby.cc:169-187; the iterators are those of iterators_ by number. *)
  Record bdb := mkB { b_h : heap; b_fresh : id; b_level : nat; b_root : id; b_first : id; b_last : id;
                      b_reorg : list (id * bytes); b_num : Z; b_its : nat -> iter }.

  (** InitializeNodes, tkrzw_dbm_baby.cc:648-653, for the constructor (343-356) and, after FreeNodes (655-675), for Clear (569-581)
      with the iterators' positions cleared.  Simplified: FreeNodes is left out, the heap is new. *)
  Definition b_init : bdb := mkB (updn (fun _ => None) 0 (Some (Leaf None None []))) 1 1 0 0 0 [] 0 (fun _ => None).
  Definition b_clear (_ : bdb) : bdb := b_init.

  (** The choice of the child, tkrzw_dbm_baby.cc:685-691. *)
  Definition pick (heir : id) (links : list (bytes * id)) (key : bytes) : id := last (map snd (fst (upper key links))) heir.
  (** SearchTree, tkrzw_dbm_baby.cc:677-695; tkrzw_dbm_tree.cc:1582-1602 goes on while the id is one of an inner node. *)
  Fixpoint search (n : nat) (h : heap) (x : id) (key : bytes) : res id :=
    match n with O => Ok x | S m => '(e, ls) <~ inner_at h x ;; search m h (pick e ls key) key end.
  Definition b_search (s : bdb) (key : bytes) : res id := search (b_level s - 1) (b_h s) (b_root s) key.
  (** TraceTree, tkrzw_dbm_baby.cc:697-716, tkrzw_dbm_tree.cc:1604-1630; the innermost node first.
      Simplified: TreeDBM also checks that the path ends at the expected leaf (1626-1628). *)
  Fixpoint trace (n : nat) (h : heap) (x : id) (key : bytes) (hist : list id) : res (list id) :=
    match n with O => Ok hist | S m => '(e, ls) <~ inner_at h x ;; trace m h (pick e ls key) key (x :: hist) end.
  Definition b_trace (s : bdb) (key : bytes) : res (list id) :=
    if Nat.leb (b_level s - 1) level_max then trace (b_level s - 1) (b_h s) (b_root s) key [] else Ub DeepTree.

  (** AddLinkToInnerNode, tkrzw_dbm_baby.cc:947-952. *)
  Definition add_link (links : list (bytes * id)) (key : bytes) (child : id) : list (bytes * id) :=
    fst (upper key links) ++ (key, child) :: snd (upper key links).
  (** The loop of DivideNodes over the path, tkrzw_dbm_baby.cc:776-809, tkrzw_dbm_tree.cc:1715-1754: heap, fresh, level, root. *)
  Fixpoint div_up (hist : list id) (h : heap) (fresh : id) (level : nat) (root heir child : id) (key : bytes) : res (heap * id * nat * id) :=
    match hist with
    | [] => Ok (updn h fresh (Some (Inner heir (add_link [] key child))), S fresh, S level, fresh)
    | x :: hist' =>
        '(e, ls) <~ inner_at h x ;;
        let ls1 := add_link ls key child in
        if Nat.leb (length ls1) max_branches then Ok (updn h x (Some (Inner e ls1)), fresh, level, root)
        else
          let m := Nat.div2 (length ls1) in
          match skipn m ls1 with
          | [] => Ub BadAccess
          | (mk, mc) :: r =>
              let new_links := fold_left (fun l kc => add_link l (fst kc) (snd kc)) r [] in
              let h1 := updn h fresh (Some (Inner mc new_links)) in
              let h2 := updn h1 x (Some (Inner e (firstn (length ls1 - S (length new_links)) ls1))) in
              div_up hist' h2 (S fresh) level root x fresh mk
          end
    end.
  (** The positions of the iterators in a divided leaf, tkrzw_dbm_baby.cc:763-770. *)
  Definition div_iter (x y : id) (mid : bytes) (i : iter) : iter :=
    match i with
    | Some (k, Some z) => if Nat.eqb z x && negb (ltb k mid) then Some (k, Some y) else i
    | _ => i
    end.
  (** DivideNodes, tkrzw_dbm_baby.cc:741-810; tkrzw_dbm_tree.cc:1667-1763. *)
  Definition divide (s : bdb) (x : id) (key : bytes) : res bdb :=
    hist <~ b_trace s key ;;
    '(p, n, rs) <~ leaf_at (b_h s) x ;;
    let y := b_fresh s in
    let m := Nat.div2 (length rs) in
    let rs1 := firstn m rs in let rs2 := skipn m rs in
    match rs2 with
    | [] => Ub EmptyFront
    | (mk, _) :: _ =>
        h1 <~ set_prev (b_h s) n (Some y) ;;
        let h2 := updn (updn h1 y (Some (Leaf (Some x) n rs2))) x (Some (Leaf p (Some y) rs1)) in
        '(h3, fresh, level, root) <~ div_up hist h2 (S y) (b_level s) (b_root s) x y mk ;;
        Ok (mkB h3 fresh level root (b_first s) (if Nat.eqb (b_last s) x then y else b_last s) (b_reorg s) (b_num s)
             (fun j => div_iter x y mk (b_its s j)))
    end.

  (** The search for the neighbours of a child, tkrzw_dbm_baby.cc:818-835 and 897-919: the previous one, its own key, the next link. *)
  Fixpoint sibs_from (prev : id) (links : list (bytes * id)) (x : id) : option id * bytes * option (bytes * id) :=
    match links with
    | [] => (None, [], None)
    | (k, c) :: r => if Nat.eqb c x then (Some prev, k, hd_error r) else sibs_from c r x
    end.
  Definition sibs (heir : id) (links : list (bytes * id)) (x : id) : option id * bytes * option (bytes * id) :=
    if Nat.eqb heir x then (None, [], hd_error links) else sibs_from heir links x.
  (** JoinPrevLinkInInnerNode, tkrzw_dbm_baby.cc:954-963. *)
  Fixpoint join_prev (links : list (bytes * id)) (x : id) : list (bytes * id) :=
    match links with [] => [] | (k, c) :: r => if Nat.eqb c x then r else (k, c) :: join_prev r x end.
  (** JoinNextLinkInInnerNode, tkrzw_dbm_baby.cc:965-982. *)
  Fixpoint join_next_links (links : list (bytes * id)) (x z : id) : res (list (bytes * id)) :=
    match links with
    | [] => Ok []
    | (k, c) :: r =>
        if Nat.eqb c x then match r with [] => Ub BadAccess | _ :: r' => Ok ((k, z) :: r') end
        else r1 <~ join_next_links r x z ;; Ok ((k, c) :: r1)
    end.
  Definition join_next (heir : id) (links : list (bytes * id)) (x z : id) : res (id * list (bytes * id)) :=
    if Nat.eqb heir x then match links with [] => Ub EmptyFront | _ :: r => Ok (z, r) end
    else ls <~ join_next_links links x z ;; Ok (heir, ls).
  (** The loop of MergeNodes over the path, tkrzw_dbm_baby.cc:884-944, tkrzw_dbm_tree.cc:1881-1960: heap, level, root. *)
  Fixpoint merge_up (x : id) (hist : list id) (h : heap) (level : nat) (root : id) : res (heap * nat * id) :=
    '(e, ls) <~ inner_at h x ;;
    if Nat.ltb (length ls) (Nat.div2 max_branches) then
      match hist with
      | [] => match ls with [] => Ok (updn h x None, level - 1, e) | _ => Ok (h, level, root) end
      | par :: hist' =>
          '(pe, pls) <~ inner_at h par ;;
          let '(prev, ikey, next) := sibs pe pls x in
          np <~ match prev with None => Ok None | Some q => a <~ inner_at h q ;; Ok (Some (q, a)) end ;;
          nn <~ match next with None => Ok None | Some (nk, z) => a <~ inner_at h z ;; Ok (Some (nk, z, a)) end ;;
          match np, nn with
          | Some (q, (qe, qls)), None =>
              let h1 := updn h q (Some (Inner qe (qls ++ (ikey, e) :: ls))) in
              let h2 := updn h1 par (Some (Inner pe (join_prev pls x))) in
              merge_up par hist' (updn h2 x None) level root
          | Some (q, (qe, qls)), Some (nk, z, (ze, zls)) =>
              if Nat.leb (length qls) (length zls) then
                let h1 := updn h q (Some (Inner qe (qls ++ (ikey, e) :: ls))) in
                let h2 := updn h1 par (Some (Inner pe (join_prev pls x))) in
                merge_up par hist' (updn h2 x None) level root
              else
                let h1 := updn h x (Some (Inner e (ls ++ (nk, ze) :: zls))) in
                let h2 := updn h1 par (Some (Inner pe (join_prev pls z))) in
                merge_up par hist' (updn h2 z None) level root
          | None, Some (nk, z, (ze, zls)) =>
              let h1 := updn h x (Some (Inner e (ls ++ (nk, ze) :: zls))) in
              let h2 := updn h1 par (Some (Inner pe (join_prev pls z))) in
              merge_up par hist' (updn h2 z None) level root
          | None, None => merge_up par hist' h level root
          end
      end
    else Ok (h, level, root).
  Definition move_iter (x y : id) (i : iter) : iter :=
    match i with Some (k, Some z) => if Nat.eqb z x then Some (k, Some y) else i | _ => i end.
  (** MergeNodes, tkrzw_dbm_baby.cc:812-945; tkrzw_dbm_tree.cc:1765-1962. *)
  Definition merge (s : bdb) (x : id) (key : bytes) : res bdb :=
    hist <~ b_trace s key ;;
    match hist with
    | [] => Ub BadAccess
    | par :: hist' =>
        '(pe, pls) <~ inner_at (b_h s) par ;;
        '(p, n, rs) <~ leaf_at (b_h s) x ;;
        let '(prev, _, next) := sibs pe pls x in
        np <~ match prev with None => Ok None | Some q => a <~ leaf_at (b_h s) q ;; Ok (Some (q, a)) end ;;
        nn <~ match next with None => Ok None | Some (_, z) => a <~ leaf_at (b_h s) z ;; Ok (Some (z, a)) end ;;
        (** Into the previous leaf (836-859) or into the next one (860-883). *)
        let into_prev := match np, nn with
          | Some (_, (_, _, qrs)), Some (_, (_, _, zrs)) => (weight qrs <=? weight zrs)%N
          | Some _, None => true
          | None, _ => false
          end in
        match np, nn, into_prev with
        | Some (q, (qp, _, qrs)), _, true =>
            let h1 := updn (b_h s) q (Some (Leaf qp n (qrs ++ rs))) in
            h2 <~ match n with None => Ok h1 | Some _ => set_prev h1 (match nn with Some (z, _) => Some z | None => n end) (Some q) end ;;
            let h3 := updn (updn h2 par (Some (Inner pe (join_prev pls x)))) x None in
            '(h4, level, root) <~ merge_up par hist' h3 (b_level s) (b_root s) ;;
            Ok (mkB h4 (b_fresh s) level root (b_first s) (if Nat.eqb (b_last s) x then q else b_last s) (b_reorg s) (b_num s)
                 (fun j => move_iter x q (b_its s j)))
        | _, Some (z, (_, zn, zrs)), _ =>
            let h1 := updn (b_h s) z (Some (Leaf p zn (rs ++ zrs))) in
            h2 <~ match p with None => Ok h1 | Some _ => set_next h1 (match np with Some (q, _) => Some q | None => p end) (Some z) end ;;
            '(pe', pls') <~ join_next pe pls x z ;;
            let h3 := updn (updn h2 par (Some (Inner pe' pls'))) x None in
            '(h4, level, root) <~ merge_up par hist' h3 (b_level s) (b_root s) ;;
            Ok (mkB h4 (b_fresh s) level root (if Nat.eqb (b_first s) x then z else b_first s) (b_last s) (b_reorg s) (b_num s)
                 (fun j => move_iter x z (b_its s j)))
        | _, _, _ =>
            '(h4, level, root) <~ merge_up par hist' (b_h s) (b_level s) (b_root s) ;;
            Ok (mkB h4 (b_fresh s) level root (b_first s) (b_last s) (b_reorg s) (b_num s) (b_its s))
        end
    end.

  Definition set_reorg (s : bdb) (l : list (id * bytes)) : bdb :=
    mkB (b_h s) (b_fresh s) (b_level s) (b_root s) (b_first s) (b_last s) l (b_num s) (b_its s).
  (** AtomicSet::Insert, tkrzw_containers.h:1663-1674. *)
  Definition add_reorg (s : bdb) (x : id) (k : bytes) : bdb :=
    if existsb (fun e => Nat.eqb (fst e) x && beqb (snd e) k) (b_reorg s) then s else set_reorg s ((x, k) :: b_reorg s).
  Fixpoint remove_nth {A} (n : nat) (l : list A) : list A :=
    match l, n with [], _ => [] | _ :: r, O => r | a :: r, S m => a :: remove_nth m r end.
  (** ReorganizeTree, tkrzw_dbm_baby.cc:718-731; tkrzw_dbm_tree.cc:1632-1657. *)
  Fixpoint reorganize_loop (fuel : nat) (s : bdb) (done : list id) : res bdb :=
    match fuel with
    | O => Ok s
    | S fu =>
        let l := b_reorg s in
        let i := Nat.modulo (choose l) (length l) in
        match nth_error l i with
        | None => Ok s
        | Some (x, k) =>
            let s1 := set_reorg s (remove_nth i l) in
            if existsb (Nat.eqb x) done then reorganize_loop fu s1 done
            else
              '(_, _, rs) <~ leaf_at (b_h s) x ;;
              s2 <~ (if divp rs then divide s1 x k else if mrgp rs && negb (Nat.eqb x (b_root s)) then merge s1 x k else Ok s1) ;;
              reorganize_loop fu s2 (x :: done)
        end
    end.
  Definition reorganize (s : bdb) : res bdb := reorganize_loop (length (b_reorg s)) s [].

  Definition put_leaf (s : bdb) (x : id) (p n : option id) (rs : list rec) (num : Z) : bdb :=
    mkB (updn (b_h s) x (Some (Leaf p n rs))) (b_fresh s) (b_level s) (b_root s) (b_first s) (b_last s) (b_reorg s) num (b_its s).
  (** "reorg_nodes_.Insert(std::make_pair(node, std::string(records.front()->GetKey())))". *)
  Definition note (s : bdb) (x : id) (rs : list rec) : res bdb := match rs with [] => Ub EmptyFront | (k, _) :: _ => Ok (add_reorg s x k) end.
  (** The same just after the record of [k0] has been erased. *)
  Definition note_del (s : bdb) (x : id) (rs : list rec) (k0 : bytes) : res bdb :=
    match rs with [] => if h_strict how then Ub EmptyFront else Ok (add_reorg s x k0) | _ => note s x rs end.
  (** ProcessImpl, tkrzw_dbm_baby.cc:1072-1116; tkrzw_dbm_tree.cc:2006-2075. *)
  Definition b_impl {S} (s : bdb) (x : id) (key : bytes) (pr : proc S) (w : bool) (st : S) : res (bdb * S) :=
    '(p, n, rs) <~ leaf_at (b_h s) x ;;
    let '(l1, l2) := lower key rs in
    let miss :=
      let '(a, st1) := on_empty pr key st in
      match a with
      | ASet v =>
          if w then
            let rs1 := l1 ++ (key, v) :: l2 in
            let s1 := put_leaf s x p n rs1 (b_num s + 1) in
            s2 <~ (if divp rs1 then note s1 x rs1 else Ok s1) ;; Ok (s2, st1)
          else Ok (s, st1)
      | _ => Ok (s, st1)
      end in
    match l2 with
    | (k, v) :: r =>
        if ltb key k then miss
        else
          let '(a, st1) := on_full pr k v st in
          if negb w then Ok (s, st1) else
          match a with
          | ANoop => Ok (s, st1)
          | ARemove =>
              let rs1 := l1 ++ r in
              let s1 := put_leaf s x p n rs1 (b_num s - 1) in
              s2 <~ (if mrgp rs1 && negb (Nat.eqb x (b_root s)) then note_del s1 x rs1 k else Ok s1) ;; Ok (s2, st1)
          | ASet v1 =>
              let rs1 := l1 ++ (k, v1) :: r in
              let s1 := put_leaf s x p n rs1 (b_num s) in
              s2 <~ (if h_check how then
                       if (blen v <? blen v1)%N then (if divp rs1 then note s1 x rs1 else Ok s1)
                       else if (blen v1 <? blen v)%N then (if mrgp rs1 && negb (Nat.eqb x (b_root s)) then note s1 x rs1 else Ok s1)
                       else Ok s1
                     else Ok s1) ;; Ok (s2, st1)
          end
    | [] => miss
    end.
  (** Process, tkrzw_dbm_baby.cc:418-433; tkrzw_dbm_tree.cc:553-593. *)
  Definition b_process {S} (s : bdb) (key : bytes) (pr : proc S) (w : bool) (st : S) : res (bdb * S) :=
    s1 <~ (if w then reorganize s else Ok s) ;;
    x <~ b_search s1 key ;;
    b_impl s1 x key pr w st.
  (** Append and AppendImpl of BabyDBM, tkrzw_dbm_baby.cc:435-445 and 1118-1141. *)
  Definition b_append (s : bdb) (key value delim : bytes) : res bdb :=
    s1 <~ reorganize s ;;
    x <~ b_search s1 key ;;
    '(p, n, rs) <~ leaf_at (b_h s1) x ;;
    let '(l1, l2) := lower key rs in
    let miss :=
      let rs1 := l1 ++ (key, value) :: l2 in
      let s2 := put_leaf s1 x p n rs1 (b_num s1 + 1) in
      if divp rs1 then note s2 x rs1 else Ok s2 in
    match l2 with
    | (k, v) :: r => if ltb key k then miss else Ok (put_leaf s1 x p n (l1 ++ (k, v ++ delim ++ value) :: r) (b_num s1))
    | [] => miss
    end.
  (** ProcessMulti, tkrzw_dbm_baby.cc:447-483 (which always reorganizes), tkrzw_dbm_tree.cc:595-655 (only if writable). *)
  Fixpoint search_all (s : bdb) (keys : list bytes) : res (list id) :=
    match keys with [] => Ok [] | k :: r => x <~ b_search s k ;; xs <~ search_all s r ;; Ok (x :: xs) end.
  Fixpoint impl_all {S} (s : bdb) (xs : list id) (l : list (bytes * proc S)) (w : bool) (st : S) : res (bdb * S) :=
    match xs, l with
    | x :: xs', (k, p) :: l' => '(s1, st1) <~ b_impl s x k p w st ;; impl_all s1 xs' l' w st1
    | _, _ => Ok (s, st)
    end.
  Definition b_multi {S} (always : bool) (s : bdb) (l : list (bytes * proc S)) (w : bool) (st : S) : res (bdb * S) :=
    s1 <~ (if always || w then reorganize s else Ok s) ;;
    xs <~ search_all s1 (map fst l) ;;
    impl_all s1 xs l w st.
  (** ProcessFirst, tkrzw_dbm_baby.cc:485-507 (which never reorganizes, and lets the processor write in any case),
      tkrzw_dbm_tree.cc:657-712: whether there was a record. *)
  Fixpoint first_from {S} (fuel : nat) (s : bdb) (ox : option id) (pr : proc S) (w : bool) (st : S) : res (bool * bdb * S) :=
    match fuel, ox with
    | _, None => Ok (false, s, st)
    | O, _ => Ub BadAccess
    | S fu, Some x =>
        '(_, n, rs) <~ leaf_at (b_h s) x ;;
        match rs with
        | (k, _) :: _ => '(s1, st1) <~ b_impl s x k pr w st ;; Ok (true, s1, st1)
        | [] => first_from fu s n pr w st
        end
    end.
  Definition b_first_of {S} (baby : bool) (s : bdb) (pr : proc S) (w : bool) (st : S) : res (bool * bdb * S) :=
    s1 <~ (if negb baby && w then reorganize s else Ok s) ;;
    first_from (b_fresh s1) s1 (Some (b_first s1)) pr (baby || w) st.
  (** ProcessEach, tkrzw_dbm_baby.cc:509-534 (which never reorganizes), tkrzw_dbm_tree.cc:714-772; without the two calls of ProcessEmpty. *)
  Fixpoint impl_keys {S} (s : bdb) (x : id) (keys : list bytes) (pr : proc S) (st : S) : res (bdb * S) :=
    match keys with [] => Ok (s, st) | k :: r => '(s1, st1) <~ b_impl s x k pr true st ;; impl_keys s1 x r pr st1 end.
  Fixpoint show_all {S} (rs : list rec) (pr : proc S) (st : S) : S :=
    match rs with [] => st | (k, v) :: r => show_all r pr (snd (on_full pr k v st)) end.
  Fixpoint each_from {S} (fuel : nat) (s : bdb) (ox : option id) (pr : proc S) (w : bool) (st : S) : res (bdb * S) :=
    match fuel, ox with
    | _, None => Ok (s, st)
    | O, _ => Ub BadAccess
    | S fu, Some x =>
        '(_, _, rs) <~ leaf_at (b_h s) x ;;
        '(s1, st1) <~ (if w then impl_keys s x (map fst rs) pr st else Ok (s, show_all rs pr st)) ;;
        '(_, n, _) <~ leaf_at (b_h s1) x ;;
        each_from fu s1 n pr w st1
    end.
  Definition b_each {S} (baby : bool) (s : bdb) (pr : proc S) (w : bool) (st : S) : res (bdb * S) :=
    s1 <~ (if negb baby && w then reorganize s else Ok s) ;;
    each_from (b_fresh s1) s1 (Some (b_first s1)) pr w st.

  (** * Iterators *)
  Definition set_it (s : bdb) (j : nat) (i : iter) : bdb :=
    mkB (b_h s) (b_fresh s) (b_level s) (b_root s) (b_first s) (b_last s) (b_reorg s) (b_num s) (fun k => if Nat.eqb k j then i else b_its s k).
  (** SetPositionFirst and SetPositionLast, tkrzw_dbm_baby.cc:1277-1303. *)
  Fixpoint pos_first (fuel : nat) (h : heap) (ox : option id) : res iter :=
    match fuel, ox with
    | _, None => Ok None
    | O, _ => Ub BadAccess
    | S fu, Some x => '(_, n, rs) <~ leaf_at h x ;; match rs with (k, _) :: _ => Ok (Some (k, Some x)) | [] => pos_first fu h n end
    end.
  Fixpoint pos_last (fuel : nat) (h : heap) (ox : option id) : res iter :=
    match fuel, ox with
    | _, None => Ok None
    | O, _ => Ub BadAccess
    | S fu, Some x => '(p, _, rs) <~ leaf_at h x ;; match rev rs with (k, _) :: _ => Ok (Some (k, Some x)) | [] => pos_last fu h p end
    end.
  (** First and Last, tkrzw_dbm_baby.cc:1157-1169; Jump, 1171-1176. *)
  Definition it_first (s : bdb) (j : nat) : res bdb := i <~ pos_first (b_fresh s) (b_h s) (Some (b_first s)) ;; Ok (set_it s j i).
  Definition it_last (s : bdb) (j : nat) : res bdb := i <~ pos_last (b_fresh s) (b_h s) (Some (b_last s)) ;; Ok (set_it s j i).
  Definition it_jump (s : bdb) (j : nat) (key : bytes) : res bdb := Ok (set_it s j (Some (key, None))).
  Definition home (s : bdb) (key : bytes) (ox : option id) : res id := match ox with Some x => Ok x | None => b_search s key end.
  (** NextImpl, tkrzw_dbm_baby.cc:1312-1334; tkrzw_dbm_tree.cc:2335-2376 leaves the leaf of the iterator unset if it was. *)
  Definition next_impl (s : bdb) (key : bytes) (ox : option id) : res iter :=
    x <~ home s key ox ;;
    '(_, n, rs) <~ leaf_at (b_h s) x ;;
    match snd (upper key rs) with (k, _) :: _ => Ok (Some (k, Some x)) | [] => pos_first (b_fresh s) (b_h s) n end.
  (** PreviousImpl, tkrzw_dbm_baby.cc:1336-1361; tkrzw_dbm_tree.cc:2378-2422. *)
  Definition prev_impl (s : bdb) (key : bytes) (ox : option id) : res iter :=
    x <~ home s key ox ;;
    '(p, _, rs) <~ leaf_at (b_h s) x ;;
    match snd (lower key rs), rev (fst (lower key rs)) with
    | _ :: _, (k, _) :: _ => Ok (Some (k, Some x))
    | _, _ => pos_last (b_fresh s) (b_h s) p
    end.
  (** SyncPosition, tkrzw_dbm_baby.cc:1363-1398; None is NOT_FOUND_ERROR with the position cleared. *)
  Definition sync (s : bdb) (key : bytes) (ox : option id) : res iter :=
    x <~ home s key ox ;;
    '(_, n, rs) <~ leaf_at (b_h s) x ;;
    match snd (lower key rs) with (k, _) :: _ => Ok (Some (k, Some x)) | [] => pos_first (b_fresh s) (b_h s) n end.
  (** Next and Previous, tkrzw_dbm_baby.cc:1237-1253. *)
  Definition it_next (s : bdb) (j : nat) : res (code * bdb) :=
    match b_its s j with None => Ok (NOT_FOUND_ERROR, s) | Some (k, ox) => i <~ next_impl s k ox ;; Ok (SUCCESS, set_it s j i) end.
  Definition it_previous (s : bdb) (j : nat) : res (code * bdb) :=
    match b_its s j with None => Ok (NOT_FOUND_ERROR, s) | Some (k, ox) => i <~ prev_impl s k ox ;; Ok (SUCCESS, set_it s j i) end.
  (** JumpLower, tkrzw_dbm_baby.cc:1178-1206; the loop ends at its second turn. *)
  Fixpoint lower_loop (fuel : nat) (s : bdb) (key : bytes) (inclusive : bool) (i : iter) : res iter :=
    match fuel, i with
    | _, None => Ok None
    | O, _ => Ub BadAccess
    | S fu, Some (k, ox) =>
        match cmp k key with
        | Lt => Ok i
        | Eq => if inclusive then Ok i else i1 <~ prev_impl s key ox ;; lower_loop fu s key inclusive i1
        | Gt => i1 <~ prev_impl s key ox ;; lower_loop fu s key inclusive i1
        end
    end.
  Definition it_jump_lower (s : bdb) (j : nat) (key : bytes) (inclusive : bool) : res bdb :=
    i <~ sync s key None ;;
    i1 <~ match i with None => pos_last (b_fresh s) (b_h s) (Some (b_last s)) | Some _ => Ok i end ;;
    i2 <~ lower_loop 2 s key inclusive i1 ;;
    Ok (set_it s j i2).
  (** JumpUpper, tkrzw_dbm_baby.cc:1208-1235. *)
  Fixpoint upper_loop (fuel : nat) (s : bdb) (key : bytes) (inclusive : bool) (i : iter) : res iter :=
    match fuel, i with
    | _, None => Ok None
    | O, _ => Ub BadAccess
    | S fu, Some (k, ox) =>
        match cmp k key with
        | Gt => Ok i
        | Eq => if inclusive then Ok i else i1 <~ next_impl s key ox ;; upper_loop fu s key inclusive i1
        | Lt => i1 <~ next_impl s key ox ;; upper_loop fu s key inclusive i1
        end
    end.
  Definition it_jump_upper (s : bdb) (j : nat) (key : bytes) (inclusive : bool) : res bdb :=
    i <~ sync s key None ;;
    i2 <~ upper_loop 2 s key inclusive i ;;
    Ok (set_it s j i2).
  (** Process and ProcessImpl of the iterators, tkrzw_dbm_baby.cc:1255-1266 and 1400-1464; tkrzw_dbm_tree.cc:2265-2279. *)
  Definition it_process {S} (s : bdb) (j : nat) (pr : proc S) (w : bool) (st : S) : res (code * bdb * S) :=
    s1 <~ (if w then reorganize s else Ok s) ;;
    match b_its s1 j with
    | None => Ok (NOT_FOUND_ERROR, s1, st)
    | Some (key, ox) =>
        i <~ sync s1 key ox ;;
        let s2 := set_it s1 j i in
        match i with
        | Some (k, Some x) =>
            if w then '(s3, st1) <~ b_impl s2 x k pr true st ;; Ok (SUCCESS, s3, st1)
            else
              '(_, _, rs) <~ leaf_at (b_h s1) x ;;
              match snd (lower k rs) with (k1, v) :: _ => Ok (SUCCESS, s2, snd (on_full pr k1 v st)) | [] => Ub BadAccess end
        | _ => Ok (NOT_FOUND_ERROR, s2, st)
        end
    end.
End Btree.
