(** BabyDBM called by several threads: the lock of the object and the locks of the leaves, one transition at a time.
    Source: /repo/tkrzw_dbm_baby.cc.

    A thread holds a lock as its program point says; a lock can be taken if no other thread holds it in a clashing mode (for
    SpinSharedMutex that is C31).  The records of a leaf are reached from that leaf only, so what ProcessImpl does to one leaf is one
    transition, a function of BtreeModel.v, and so is a reorganization, which runs under the exclusive lock of the object.
    Simplified: the counter num_records_ (std::atomic) and the set reorg_nodes_ (with its own lock, tkrzw_containers.h:1663-1715) change
    in the same transition as the leaf.  The update logger, the iterators, the files and the timestamp are not modelled here. *)
From Coq Require Import List NArith ZArith Bool.
Import ListNotations.
From Verif Require Import Bytes DbmModel HashMutexModel BtreeModel.

Section Conc.
  (** As in BtreeModel.v. *)
  Variable cmp : bytes -> bytes -> comparison.
  Variables divp mrgp : list rec -> bool.
  Variable weight : list rec -> N.
  Variable how : leafcf.
  Variables max_branches level_max : nat.
  Variable choose : list (id * bytes) -> nat.
  (** The addresses of the leaves. *)
  Variable addr : id -> N.
  (** The state of the processors of one call. *)
  Variable S : Type.

  (** The local variables of a call: the state of its processors, the number it returns, whether a record was found. *)
  Record loc := mkLoc { x_s : S; x_n : Z; x_hit : bool }.

  (** What is done to one leaf while its mutex is held. *)
  Inductive act :=
  | AProc (k : bytes) (p : proc S) (w : bool)   (** ProcessImpl, tkrzw_dbm_baby.cc:1072-1116 *)
  | AAppend (k v d : bytes)                     (** AppendImpl, tkrzw_dbm_baby.cc:1118-1141 *)
  | AFirst (p : proc S)                         (** the first record of the leaf, if any: tkrzw_dbm_baby.cc:491-495 and 498-502, the same in both modes *)
  | AAll (p : proc S)                           (** the keys of the leaf are copied, then processed one by one: tkrzw_dbm_baby.cc:516-523 *)
  | AShow (p : proc S).                         (** tkrzw_dbm_baby.cc:526-528 *)

  (** AppendImpl, tkrzw_dbm_baby.cc:1118-1141: as at the end of [b_append]. *)
  Definition append_impl (s : bdb) (x : id) (key value delim : bytes) : res bdb :=
    '(p, n, rs) <~ leaf_at (b_h s) x ;;
    let '(l1, l2) := lower cmp key rs in
    let miss :=
      let rs1 := l1 ++ (key, value) :: l2 in
      let s2 := put_leaf s x p n rs1 (b_num s + 1) in
      if divp rs1 then note s2 x rs1 else Ok s2 in
    match l2 with
    | (k, v) :: r => if ltb cmp key k then miss else Ok (put_leaf s x p n (l1 ++ (k, v ++ delim ++ value) :: r) (b_num s))
    | [] => miss
    end.
  (** The new state, the local variables, and what is to be done next under the same lock. *)
  Definition exec_act (s : bdb) (y : id) (a : act) (x : loc) : res (bdb * loc * list (id * act)) :=
    match a with
    | AProc k p w => '(s', st) <~ b_impl cmp divp mrgp how s y k p w (x_s x) ;; Ok (s', mkLoc st (x_n x) (x_hit x), [])
    | AAppend k v d => s' <~ append_impl s y k v d ;; Ok (s', x, [])
    | AFirst p =>
        '(_, _, rs) <~ leaf_at (b_h s) y ;;
        match rs with
        | [] => Ok (s, x, [])
        | (k, _) :: _ => '(s', st) <~ b_impl cmp divp mrgp how s y k p true (x_s x) ;; Ok (s', mkLoc st (x_n x) true, [])
        end
    | AAll p => '(_, _, rs) <~ leaf_at (b_h s) y ;; Ok (s, x, map (fun kv => (y, AProc (fst kv) p true)) rs)
    | AShow p => '(_, _, rs) <~ leaf_at (b_h s) y ;; Ok (s, mkLoc (show_all rs p (x_s x)) (x_n x) (x_hit x), [])
    end.

  Inductive ccall :=
  | KProcess (k : bytes) (p : proc S) (w : bool) (s : S)
  | KAppend (k v d : bytes) (s : S)
  | KMulti (l : list (bytes * proc S)) (w : bool) (s : S)
  | KFirst (p : proc S) (w : bool) (s : S)
  | KEach (p : proc S) (w : bool) (noop : bytes) (s : S)
  | KCount (s : S)
  | KClear (s : S).
  Definition st_of (c : ccall) : S :=
    match c with KProcess _ _ _ s | KAppend _ _ _ s | KMulti _ _ s | KFirst _ _ s | KEach _ _ _ s | KCount s | KClear s => s end.
  Definition loc0 (c : ccall) : loc := mkLoc (st_of c) 0 false.
  (** The calls which look at reorg_nodes_ first, tkrzw_dbm_baby.cc:419-422, 436-439, 450-453. *)
  Definition checks (c : ccall) : bool := match c with KProcess _ _ w _ => w | KAppend _ _ _ _ | KMulti _ _ _ => true | _ => false end.
  (** The mode of the locks of leaves: [true] is exclusive. *)
  Definition page_mode (c : ccall) : bool :=
    match c with KProcess _ _ w _ | KMulti _ w _ | KFirst _ w _ | KEach _ w _ _ => w | KAppend _ _ _ _ => true | _ => false end.
  (** ProcessEach calls ProcessEmpty before and after, tkrzw_dbm_baby.cc:511 and 532. *)
  Definition call_empty (c : ccall) (x : loc) : loc :=
    match c with KEach p _ noop _ => mkLoc (snd (on_empty p noop (x_s x))) (x_n x) (x_hit x) | _ => x end.
  (** What ProcessFirst and ProcessEach do to each leaf. *)
  Definition walk_act (c : ccall) : option act :=
    match c with
    | KFirst p _ _ => Some (AFirst p)
    | KEach p w _ _ => Some (if w then AAll p else AShow p)
    | _ => None
    end.

  (** std::set of addresses: ascending, each once.  tkrzw_dbm_baby.cc:456-461 *)
  Fixpoint page_ins (y : id) (l : list id) : list id :=
    match l with
    | [] => [y]
    | z :: r => if (addr y <? addr z)%N then y :: l else if (addr z <? addr y)%N then z :: page_ins y r else l
    end.
  Definition pages (l : list (id * act)) : list id := fold_left (fun a e => page_ins (fst e) a) l [].

  (** After a section: the end of the call, or the next leaf. *)
  Inductive cont := CRet | CWalk (y : id).
  (** Program points. *)
  Inductive pc :=
  | PIdle
  | PCheck (c : ccall)                                                             (** about to call reorg_nodes_.IsEmpty() *)
  | PWant (c : ccall)                                                              (** about to lock mutex_ of the object exclusively for ReorganizeTree *)
  | PReorg (c : ccall)                                                             (** mutex_ held exclusively *)
  | PMain (c : ccall)                                                              (** about to lock mutex_ for the call *)
  | PFind (c : ccall)                                                              (** mutex_ held in shared mode *)
  | PLock (c : ccall) (l : list (id * act)) (k : cont) (x : loc) (got todo : list id)  (** locking leaves, tkrzw_dbm_baby.cc:425, 429, 443, 463-469, 490, 497, 515, 525 *)
  | PBody (c : ccall) (l : list (id * act)) (k : cont) (x : loc) (r : list (id * act)) (** [r] is left of the section *)
  | PUn (c : ccall) (k : cont) (x : loc) (todo : list id)                          (** unlocking, tkrzw_dbm_baby.cc:475-482 *)
  | PExcl (c : ccall)                                                              (** mutex_ held exclusively for Clear *)
  | PRet (x : loc).
  Definition lock_pc (c : ccall) (l : list (id * act)) (k : cont) (x : loc) : pc := PLock c l k x [] (pages l).
  Definition walk_to (c : ccall) (y : id) (x : loc) : pc :=
    match walk_act c with Some a => lock_pc c [(y, a)] (CWalk y) x | None => PRet x end.
  Definition sec_of (l : list (bytes * proc S)) (w : bool) (ys : list id) : list (id * act) :=
    map (fun ykp => (fst ykp, AProc (fst (snd ykp)) (snd (snd ykp)) w)) (combine ys l).

  Inductive act_result := Wait | UB (e : ub) | Next (s : bdb) (p : pc).
  Definition next_of {A} (r : res A) (f : A -> act_result) : act_result := match r with Ok a => f a | Ub e => UB e end.
  Definition cact (s : bdb) (p : pc) : act_result :=
    match p with
    | PIdle | PCheck _ | PWant _ | PMain _ | PRet _ | PLock _ _ _ _ _ (_ :: _) => Wait
    (** ReorganizeTree, tkrzw_dbm_baby.cc:718-731; then mutex_ is unlocked. *)
    | PReorg c => next_of (reorganize cmp divp mrgp weight max_branches level_max choose s) (fun s' => Next s' (PMain c))
    | PFind c =>
        match c with
        | KProcess k p w _ => next_of (b_search cmp s k) (fun y => Next s (lock_pc c [(y, AProc k p w)] CRet (loc0 c)))
        | KAppend k v d _ => next_of (b_search cmp s k) (fun y => Next s (lock_pc c [(y, AAppend k v d)] CRet (loc0 c)))
        | KMulti l w _ => next_of (search_all cmp s (map fst l)) (fun ys => Next s (lock_pc c (sec_of l w ys) CRet (loc0 c)))
        | KFirst _ _ _ | KEach _ _ _ _ => Next s (walk_to c (b_first s) (call_empty c (loc0 c)))
        (** Count, tkrzw_dbm_baby.cc:536-540. *)
        | KCount st => Next s (PRet (mkLoc st (b_num s) false))
        | KClear _ => Wait
        end
    | PLock c l k x _ [] =>
        match l with
        | [] => Next s (PUn c k x [])
        | (y, a) :: r => next_of (exec_act s y a x) (fun '(s', x', more) => Next s' (PBody c l k x' (more ++ r)))
        end
    | PBody c l k x ((y, a) :: r) => next_of (exec_act s y a x) (fun '(s', x', more) => Next s' (PBody c l k x' (more ++ r)))
    | PBody c l k x [] => Next s (PUn c k x (rev (pages l)))
    | PUn c k x (_ :: todo) => Next s (PUn c k x todo)
    | PUn c CRet x [] => Next s (PRet x)
    (** "return" at tkrzw_dbm_baby.cc:494 and 501; "leaf_node = leaf_node->next" at 505 and 530. *)
    | PUn c (CWalk y) x [] =>
        if x_hit x then Next s (PRet x)
        else next_of (leaf_at (b_h s) y) (fun '(_, nx, _) => Next s (match nx with None => PRet (call_empty c x) | Some z => walk_to c z x end))
    (** Clear, tkrzw_dbm_baby.cc:569-581. *)
    | PExcl c => Next (b_clear s) (PRet (loc0 c))
    end.

  (** The locks held. *)
  Definition main_of (p : pc) : option mode :=
    match p with PIdle | PCheck _ | PWant _ | PMain _ | PRet _ => None | PReorg _ | PExcl _ => Some MX | _ => Some MS end.
  Definition pages_held (p : pc) : list id :=
    match p with
    | PLock _ _ _ _ got _ => got
    | PBody _ l _ _ _ => pages l
    | PUn _ _ _ todo => todo
    | _ => []
    end.
  Definition held_mode (p : pc) : bool :=
    match p with PLock c _ _ _ _ _ | PBody c _ _ _ _ | PUn c _ _ _ => page_mode c | _ => false end.

  (** The memory the next transition accesses: the nodes of the tree and the links between the leaves, or the records of a leaf;
      [true]: it may write there.  ProcessImpl may write if its last argument says so, and in ProcessFirst, where that is true in
      either mode, if the processor ever asks for a change (tkrzw_dbm_baby.cc:1081).
      The counter num_records_ is atomic and reorg_nodes_ has a lock of its own: they are left out. *)
  Inductive place := Tree | Records (y : id).
  Definition may_write (a : act) : Prop :=
    match a with AProc _ _ w => w = true | AAppend _ _ _ => True | AFirst p => exists k v s, fst (on_full p k v s) <> ANoop | AAll _ => False | AShow _ => False end.
  Inductive access : pc -> place -> bool -> Prop :=
  | ac_find c : access (PFind c) Tree false
  | ac_next c y x : access (PUn c (CWalk y) x []) Tree false
  (** CheckLeafNodeToMerge compares the leaf with the root, tkrzw_dbm_baby.cc:737-739. *)
  | ac_lock_t c y a r k x got : access (PLock c ((y, a) :: r) k x got []) Tree false
  | ac_body_t c l k x y a r : access (PBody c l k x ((y, a) :: r)) Tree false
  | ac_lock c y a r k x got : access (PLock c ((y, a) :: r) k x got []) (Records y) false
  | ac_lock_w c y a r k x got : may_write a -> access (PLock c ((y, a) :: r) k x got []) (Records y) true
  | ac_body c l k x y a r : access (PBody c l k x ((y, a) :: r)) (Records y) false
  | ac_body_w c l k x y a r : may_write a -> access (PBody c l k x ((y, a) :: r)) (Records y) true
  | ac_reorg c pl : access (PReorg c) pl true
  | ac_excl c pl : access (PExcl c) pl true.

  Record sys := mkSys { y_s : bdb; y_pc : nat -> pc }.
  Definition upd (f : nat -> pc) (t : nat) (p : pc) : nat -> pc := fun u => if Nat.eqb u t then p else f u.
  (** A call returns its local variables: what the processors have been shown, the count, and whether a record was found. *)
  Inductive ev := ECall (t : nat) (c : ccall) | ERet (t : nat) (x : loc) | ETau.
  (** The threads are 0 .. n-1. *)
  Variable n : nat.
  Definition start (c : ccall) : pc := if checks c then PCheck c else PMain c.
  Definition excl (c : ccall) : bool := match c with KClear _ => true | _ => false end.
  Definition free_main (y : sys) (t : nat) (md : mode) : Prop := forall u b, u <> t -> main_of (y_pc y u) = Some b -> md = MS /\ b = MS.
  Definition free_page (y : sys) (t : nat) (z : id) (w : bool) : Prop :=
    forall u, u <> t -> In z (pages_held (y_pc y u)) -> w = false /\ held_mode (y_pc y u) = false.
  Inductive step (y : sys) : ev -> sys -> Prop :=
  | st_call t c : (t < n)%nat -> y_pc y t = PIdle -> step y (ECall t c) (mkSys (y_s y) (upd (y_pc y) t (start c)))
  (** IsEmpty without a lock: it may answer either way, so that what it answers while another thread inserts is covered. *)
  | st_check t c (b : bool) : y_pc y t = PCheck c -> step y ETau (mkSys (y_s y) (upd (y_pc y) t (if b then PMain c else PWant c)))
  | st_want t c : y_pc y t = PWant c -> free_main y t MX -> step y ETau (mkSys (y_s y) (upd (y_pc y) t (PReorg c)))
  | st_main t c : y_pc y t = PMain c -> free_main y t (if excl c then MX else MS) ->
      step y ETau (mkSys (y_s y) (upd (y_pc y) t (if excl c then PExcl c else PFind c)))
  | st_page t c l k x got z todo : y_pc y t = PLock c l k x got (z :: todo) -> free_page y t z (page_mode c) ->
      step y ETau (mkSys (y_s y) (upd (y_pc y) t (PLock c l k x (got ++ [z]) todo)))
  | st_act t s' p' : cact (y_s y) (y_pc y t) = Next s' p' -> step y ETau (mkSys s' (upd (y_pc y) t p'))
  | st_ret t x : y_pc y t = PRet x -> step y (ERet t x) (mkSys (y_s y) (upd (y_pc y) t PIdle)).
  Inductive run : sys -> list ev -> sys -> Prop :=
  | run_nil y : run y [] y
  | run_tau y y1 tr y2 : run y tr y1 -> step y1 ETau y2 -> run y tr y2
  | run_ev y y1 tr e y2 : run y tr y1 -> e <> ETau -> step y1 e y2 -> run y (tr ++ [e]) y2.
  Definition init : sys := mkSys b_init (fun _ => PIdle).
End Conc.
Arguments mkLoc {S}. Arguments x_s {S}. Arguments x_n {S}. Arguments x_hit {S}.
Arguments AProc {S}. Arguments AAppend {S}. Arguments AFirst {S}. Arguments AAll {S}. Arguments AShow {S}.
Arguments exec_act cmp divp mrgp how {S}.
Arguments KProcess {S}. Arguments KAppend {S}. Arguments KMulti {S}. Arguments KFirst {S}. Arguments KEach {S}. Arguments KCount {S}. Arguments KClear {S}.
Arguments st_of {S}. Arguments loc0 {S}. Arguments checks {S}. Arguments page_mode {S}. Arguments call_empty {S}. Arguments walk_act {S}. Arguments pages addr {S}.
Arguments PIdle {S}. Arguments PCheck {S}. Arguments PWant {S}. Arguments PReorg {S}. Arguments PMain {S}. Arguments PFind {S}. Arguments PLock {S}. Arguments PBody {S}. Arguments PUn {S}. Arguments PExcl {S}. Arguments PRet {S}.
Arguments lock_pc addr {S}. Arguments walk_to addr {S}. Arguments sec_of {S}. Arguments Wait {S}. Arguments UB {S}. Arguments Next {S}. Arguments next_of {S A}.
Arguments cact cmp divp mrgp weight how max_branches level_max choose addr {S}.
Arguments main_of {S}. Arguments pages_held addr {S}. Arguments held_mode {S}. Arguments may_write {S}. Arguments access {S}.
Arguments mkSys {S}. Arguments y_s {S}. Arguments y_pc {S}. Arguments upd {S}. Arguments ECall {S}. Arguments ERet {S}. Arguments ETau {S}.
Arguments start {S}. Arguments excl {S}. Arguments free_main {S}. Arguments free_page addr {S}.
Arguments step cmp divp mrgp weight how max_branches level_max choose addr {S}.
Arguments run cmp divp mrgp weight how max_branches level_max choose addr {S}. Arguments init {S}.
