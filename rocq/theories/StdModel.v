(** StdHashDBM and StdTreeDBM: databases on std::unordered_map and std::map.
    Source: /repo/tkrzw_dbm_std.cc (the two classes share the template StdDBMImpl).
    The container is the list of its elements in the order of iteration; every
    element has a number of its own, and an iterator of the container is None (end())
    or the number of an element.  Using an iterator whose element is not in the
    container is undefined behaviour: the result None.  What the standard containers
    are taken to do is said at [kind], [insert_at], [erase_id] and [std_rebuild].
    Locks are not modelled (one call at a time); the update logger is the list of what
    was written to it; iterator objects are numbered, and each stands at end() until it is
    first moved, as after its construction (tkrzw_dbm_std.cc:612-618). *)
From Coq Require Import List NArith Bool.
Import ListNotations.
From Verif Require Import Bytes BytesOrder StatusModel DbmModel.

Record elem := mkE { e_id : nat; e_key : bytes; e_val : bytes }.
(** The container class: where a new element goes in the order of iteration, and the
    order after unordered_map::rehash.  std::map is [tree_kind]; for std::unordered_map
    the two functions are arbitrary (the theorems ask of the second only that it keeps
    the elements): nothing is said of the order of the buckets.  max_load_factor is
    FLOATMAX (tkrzw_dbm_std.cc:110-111), so that emplace never rehashes. *)
Record kind := mkKind { k_tree : bool; k_place : list elem -> bytes -> nat; k_rehash : list elem -> list elem }.
Definition blt_b (a b : bytes) : bool := match bcmp a b with Lt => true | _ => false end.
(** lower_bound and upper_bound as indexes. *)
Fixpoint lower_index (l : list elem) (k : bytes) : nat :=
  match l with [] => O | e :: r => if blt_b (e_key e) k then S (lower_index r k) else O end.
Fixpoint upper_index (l : list elem) (k : bytes) : nat :=
  match l with [] => O | e :: r => if blt_b k (e_key e) then O else S (upper_index r k) end.
Definition tree_kind : kind := mkKind true lower_index (fun l => l).
Definition hash_kind (place : list elem -> bytes -> nat) (rehash : list elem -> list elem) : kind := mkKind false place rehash.

(** * The container *)
(** find *)
Definition find_key (k : bytes) (l : list elem) : option elem := find (fun e => beqb (e_key e) k) l.
Definition find_id (i : nat) (l : list elem) : option elem := find (fun e => Nat.eqb (e_id e) i) l.
Definition head_id (l : list elem) : option nat := option_map e_id (hd_error l).
(** begin() *)
Definition c_begin (l : list elem) : option nat := head_id l.
(** The iterator at an index: end() at the size. *)
Definition c_at (l : list elem) (n : nat) : option nat := head_id (skipn n l).
(** operator++ on the iterator of element [i]; None: no such element. *)
Fixpoint c_next (i : nat) (l : list elem) : option (option nat) :=
  match l with [] => None | e :: r => if Nat.eqb (e_id e) i then Some (head_id r) else c_next i r end.
(** operator-- on the iterator of element [i]; None: no such element, or the first. *)
Fixpoint c_prev (i : nat) (l : list elem) : option (option nat) :=
  match l with
  | [] => None
  | e :: r => match r with
              | [] => None
              | e' :: _ => if Nat.eqb (e_id e') i then Some (Some (e_id e)) else c_prev i r
              end
  end.
(** operator-- on end(). *)
Definition c_last (l : list elem) : option nat := head_id (rev l).
(** emplace of a key that is not there: the other elements keep their order and their
    iterators. *)
Definition insert_at (n : nat) (e : elem) (l : list elem) : list elem := firstn n l ++ e :: skipn n l.
(** erase: the others keep their order and their iterators. *)
Definition erase_id (i : nat) (l : list elem) : list elem := filter (fun e => negb (Nat.eqb (e_id e) i)) l.
(** it->second = v *)
Definition assign_id (i : nat) (v : bytes) (l : list elem) : list elem :=
  map (fun e => if Nat.eqb (e_id e) i then mkE (e_id e) (e_key e) v else e) l.

(** * The database *)
(** What was written to the update logger. *)
Inductive logged := WSet (k v : bytes) | WRemove (k : bytes) | WClear.
(** map_, the number for the next element, it_ of every iterator object, the logger.
    tkrzw_dbm_std.cc:68-77, 96-97 *)
Record sdb := mkS { s_map : list elem; s_next : nat; s_its : nat -> option nat; s_log : list logged }.
Definition s_new : sdb := mkS [] O (fun _ => None) [].
Definition set_it (db : sdb) (j : nat) (it : option nat) : sdb :=
  mkS (s_map db) (s_next db) (fun i => if Nat.eqb i j then it else s_its db i) (s_log db).
(** CancelIterators, tkrzw_dbm_std.cc:518-523. *)
Definition cancel (db : sdb) : sdb := mkS (s_map db) (s_next db) (fun _ => None) (s_log db).
(** WriteSet and emplace of a key that is not there, e.g. tkrzw_dbm_std.cc:182-185. *)
Definition emplace (kd : kind) (db : sdb) (k v : bytes) : sdb :=
  mkS (insert_at (k_place kd (s_map db) k) (mkE (s_next db) k v) (s_map db)) (S (s_next db)) (s_its db) (s_log db).
Definition log_add (db : sdb) (w : logged) : sdb := mkS (s_map db) (s_next db) (s_its db) (s_log db ++ [w]).
Definition add_rec (kd : kind) (db : sdb) (k v : bytes) : sdb := emplace kd (log_add db (WSet k v)) k v.
(** WriteSet and the assignment, e.g. tkrzw_dbm_std.cc:201-204. *)
Definition set_rec (db : sdb) (e : elem) (v : bytes) : sdb :=
  mkS (assign_id (e_id e) v (s_map db)) (s_next db) (s_its db) (s_log db ++ [WSet (e_key e) v]).
(** The loop that moves the iterators standing on the element, e.g.
    tkrzw_dbm_std.cc:194-198. *)
Definition bump (i : nat) (l : list elem) (its : nat -> option nat) : nat -> option nat := fun j =>
  match its j with
  | Some x => if Nat.eqb x i then match c_next i l with Some n => n | None => Some x end else Some x
  | None => None
  end.
(** WriteRemove, that loop and erase, e.g. tkrzw_dbm_std.cc:191-199. *)
Definition del_rec (db : sdb) (e : elem) : sdb :=
  mkS (erase_id (e_id e) (s_map db)) (s_next db) (bump (e_id e) (s_map db) (s_its db)) (s_log db ++ [WRemove (e_key e)]).
(** What is done to a record that is there. *)
Definition act_full (db : sdb) (e : elem) (a : action) : sdb :=
  match a with ANoop => db | ARemove => del_rec db e | ASet v => set_rec db e v end.

Section Std.
  Variable kd : kind.
  Context {S : Type}.
  (** Process, tkrzw_dbm_std.cc:171-218. *)
  Definition std_process (db : sdb) (k : bytes) (p : proc S) (w : bool) (s : S) : code * sdb * S :=
    match find_key k (s_map db) with
    | None =>
        let '(a, s') := on_empty p k s in
        (SUCCESS, if w then match a with ASet v => add_rec kd db k v | _ => db end else db, s')
    | Some e =>
        let '(a, s') := on_full p k (e_val e) s in
        (SUCCESS, if w then act_full db e a else db, s')
    end.
  (** ProcessMulti, tkrzw_dbm_std.cc:220-277: the body of the loops is that of Process. *)
  Fixpoint std_multi (db : sdb) (l : list (bytes * proc S)) (w : bool) (s : S) : code * sdb * S :=
    match l with
    | [] => (SUCCESS, db, s)
    | (k, p) :: r => let '(_, db', s') := std_process db k p w s in std_multi db' r w s'
    end.
  (** ProcessFirst, tkrzw_dbm_std.cc:279-314. *)
  Definition std_first (db : sdb) (p : proc S) (w : bool) (s : S) : code * sdb * S :=
    match hd_error (s_map db) with
    | None => (NOT_FOUND_ERROR, db, s)
    | Some e => let '(a, s') := on_full p (e_key e) (e_val e) s in (SUCCESS, if w then act_full db e a else db, s')
    end.
  (** The loop of ProcessEach, tkrzw_dbm_std.cc:321-343 and 348-353, from the iterator
      [it].  Fuel: the number of iterations.  None: out of fuel, or undefined. *)
  Fixpoint each_loop (fuel : nat) (db : sdb) (it : option nat) (p : proc S) (w : bool) (s : S) : option (sdb * S) :=
    match it with
    | None => Some (db, s)
    | Some i =>
        match fuel with
        | O => None
        | Datatypes.S fu =>
            match find_id i (s_map db), c_next i (s_map db) with
            | Some e, Some it' =>
                let '(a, s') := on_full p (e_key e) (e_val e) s in
                each_loop fu (if w then act_full db e a else db) it' p w s'
            | _, _ => None
            end
        end
    end.
  (** ProcessEach, tkrzw_dbm_std.cc:316-357.  The key given to ProcessEmpty before and
      after is the string of RecordProcessor::NOOP, [noop]. *)
  Definition std_each (noop : bytes) (db : sdb) (p : proc S) (w : bool) (s : S) : option (code * sdb * S) :=
    let s1 := snd (on_empty p noop s) in
    match each_loop (length (s_map db)) db (c_begin (s_map db)) p w s1 with
    | None => None
    | Some (db', s2) => Some (SUCCESS, db', snd (on_empty p noop s2))
    end.
  (** Count, tkrzw_dbm_std.cc:359-364. *)
  Definition std_count (db : sdb) : nat := length (s_map db).
  (** Clear, tkrzw_dbm_std.cc:396-405. *)
  Definition std_clear (db : sdb) : sdb := cancel (mkS [] (s_next db) (s_its db) (s_log db ++ [WClear])).
  (** Rebuild, tkrzw_dbm_std.cc:407-420.  unordered_map::rehash invalidates every
      iterator: the elements get new numbers. *)
  Fixpoint renumber (n : nat) (l : list elem) : list elem :=
    match l with [] => [] | e :: r => mkE n (e_key e) (e_val e) :: renumber (Datatypes.S n) r end.
  Definition std_rebuild (db : sdb) : sdb :=
    if k_tree kd then cancel db
    else cancel (mkS (renumber (s_next db) (k_rehash kd (s_map db))) (s_next db + length (k_rehash kd (s_map db))) (s_its db) (s_log db)).

  (** * The iterators *)
  (** Dereferencing or comparing it_: None: undefined; Some None: end(). *)
  Definition it_at (db : sdb) (j : nat) : option (option elem) :=
    match s_its db j with
    | None => Some None
    | Some i => match find_id i (s_map db) with Some e => Some (Some e) | None => None end
    end.
  (** First, tkrzw_dbm_std.cc:628-634. *)
  Definition std_it_first (db : sdb) (j : nat) : code * sdb := (SUCCESS, set_it db j (c_begin (s_map db))).
  (** Last, tkrzw_dbm_std.cc:636-650. *)
  Definition std_it_last (db : sdb) (j : nat) : code * sdb :=
    if k_tree kd then (SUCCESS, set_it db j (c_last (s_map db))) else (NOT_IMPLEMENTED_ERROR, db).
  (** Jump, tkrzw_dbm_std.cc:652-669. *)
  Definition std_it_jump (db : sdb) (j : nat) (k : bytes) : code * sdb :=
    if k_tree kd then (SUCCESS, set_it db j (c_at (s_map db) (lower_index (s_map db) k)))
    else match find_key k (s_map db) with
         | Some e => (SUCCESS, set_it db j (Some (e_id e)))
         | None => (NOT_FOUND_ERROR, set_it db j None)
         end.
  (** The loop of JumpLower, tkrzw_dbm_std.cc:688-697: [n] is the index of it_. *)
  Fixpoint lower_loop (l : list elem) (n : nat) (k : bytes) (inclusive : bool) : option (option nat) :=
    match nth_error l n with
    | None => None
    | Some e =>
        if (if inclusive then negb (blt_b k (e_key e)) else blt_b (e_key e) k) then Some (Some (e_id e))
        else match n with O => Some None | Datatypes.S n' => lower_loop l n' k inclusive end
    end.
  (** JumpLower, tkrzw_dbm_std.cc:671-700. *)
  Definition std_it_jump_lower (db : sdb) (j : nat) (k : bytes) (inclusive : bool) : option (code * sdb) :=
    if k_tree kd then
      let l := s_map db in
      let n := lower_index l k in
      if Nat.eqb n (length l) then
        match l with
        | [] => Some (SUCCESS, set_it db j None)
        | _ => match lower_loop l (n - 1) k inclusive with Some it => Some (SUCCESS, set_it db j it) | None => None end
        end
      else match lower_loop l n k inclusive with Some it => Some (SUCCESS, set_it db j it) | None => None end
    else Some (NOT_IMPLEMENTED_ERROR, db).
  (** JumpUpper, tkrzw_dbm_std.cc:702-715. *)
  Definition std_it_jump_upper (db : sdb) (j : nat) (k : bytes) (inclusive : bool) : code * sdb :=
    if k_tree kd then (SUCCESS, set_it db j (c_at (s_map db) (if inclusive then lower_index (s_map db) k else upper_index (s_map db) k)))
    else (NOT_IMPLEMENTED_ERROR, db).
  (** Next, tkrzw_dbm_std.cc:717-728. *)
  Definition std_it_next (db : sdb) (j : nat) : option (code * sdb) :=
    match s_its db j with
    | None => Some (NOT_FOUND_ERROR, db)
    | Some i => match c_next i (s_map db) with Some it => Some (SUCCESS, set_it db j it) | None => None end
    end.
  (** Previous, tkrzw_dbm_std.cc:730-748. *)
  Definition std_it_prev (db : sdb) (j : nat) : option (code * sdb) :=
    if k_tree kd then
      match s_its db j with
      | None => Some (NOT_FOUND_ERROR, db)
      | Some i =>
          if match c_begin (s_map db) with Some b => Nat.eqb b i | None => false end then Some (SUCCESS, set_it db j None)
          else match c_prev i (s_map db) with Some it => Some (SUCCESS, set_it db j it) | None => None end
      end
    else Some (NOT_IMPLEMENTED_ERROR, db).
  (** The loop over the other iterators and erase(it_++), tkrzw_dbm_std.cc:763-768:
      it_ itself is moved by the increment. *)
  Definition bump_others (j i : nat) (l : list elem) (its : nat -> option nat) : nat -> option nat := fun x =>
    if Nat.eqb x j then its x else bump i l its x.
  (** Process of an iterator, tkrzw_dbm_std.cc:750-783. *)
  Definition std_it_process (db : sdb) (j : nat) (p : proc S) (w : bool) (s : S) : option (code * sdb * S) :=
    match it_at db j with
    | None => None
    | Some None => Some (NOT_FOUND_ERROR, db, s)
    | Some (Some e) =>
        let '(a, s') := on_full p (e_key e) (e_val e) s in
        if w then
          match a with
          | ANoop => Some (SUCCESS, db, s')
          | ARemove =>
              match c_next (e_id e) (s_map db) with
              | None => None
              | Some it =>
                  Some (SUCCESS, set_it (mkS (erase_id (e_id e) (s_map db)) (s_next db)
                                             (bump_others j (e_id e) (s_map db) (s_its db)) (s_log db ++ [WRemove (e_key e)])) j it, s')
              end
          | ASet v =>
              match find_key (e_key e) (s_map db) with
              | None => None
              | Some e' => Some (SUCCESS, mkS (assign_id (e_id e') v (s_map db)) (s_next db) (s_its db) (s_log db ++ [WSet (e_key e) v]), s')
              end
          end
        else Some (SUCCESS, db, s')
    end.
End Std.

(** * Calls *)
Inductive scall (S : Type) :=
| SProcess (k : bytes) (p : proc S) (w : bool) | SMulti (l : list (bytes * proc S)) (w : bool)
| SFirst (p : proc S) (w : bool) | SEach (p : proc S) (w : bool)
| SCount | SClear | SRebuild
| IFirst (j : nat) | ILast (j : nat) | IJump (j : nat) (k : bytes) | IJumpLower (j : nat) (k : bytes) (inc : bool)
| IJumpUpper (j : nat) (k : bytes) (inc : bool) | INext (j : nat) | IPrev (j : nat)
| IProcess (j : nat) (p : proc S) (w : bool).
Arguments SProcess {S}. Arguments SMulti {S}. Arguments SFirst {S}. Arguments SEach {S}. Arguments SCount {S}. Arguments SClear {S}.
Arguments SRebuild {S}. Arguments IFirst {S}. Arguments ILast {S}. Arguments IJump {S}. Arguments IJumpLower {S}.
Arguments IJumpUpper {S}. Arguments INext {S}. Arguments IPrev {S}. Arguments IProcess {S}.

(** One call: the status and the number Count gives (0 for the others).  None: undefined. *)
Definition std_step {S} (kd : kind) (noop : bytes) (db : sdb) (c : scall S) (s : S) : option (code * nat * sdb * S) :=
  let ok '(c, db', s') := Some (c, O, db', s') in
  let it '(c, db') := Some (c, O, db', s) in
  match c with
  | SProcess k p w => ok (std_process kd db k p w s)
  | SMulti l w => ok (std_multi kd db l w s)
  | SFirst p w => ok (std_first db p w s)
  | SEach p w => match std_each noop db p w s with Some r => ok r | None => None end
  | SCount => Some (SUCCESS, std_count db, db, s)
  | SClear => Some (SUCCESS, O, std_clear db, s)
  | SRebuild => Some (SUCCESS, O, std_rebuild kd db, s)
  | IFirst j => it (std_it_first db j)
  | ILast j => it (std_it_last kd db j)
  | IJump j k => it (std_it_jump kd db j k)
  | IJumpLower j k inc => match std_it_jump_lower kd db j k inc with Some r => it r | None => None end
  | IJumpUpper j k inc => it (std_it_jump_upper kd db j k inc)
  | INext j => match std_it_next db j with Some r => it r | None => None end
  | IPrev j => match std_it_prev kd db j with Some r => it r | None => None end
  | IProcess j p w => match std_it_process db j p w s with Some r => ok r | None => None end
  end.
Fixpoint std_run {S} (kd : kind) (noop : bytes) (db : sdb) (cs : list (scall S)) (s : S) : option (list (code * nat) * sdb * S) :=
  match cs with
  | [] => Some ([], db, s)
  | c :: r =>
      match std_step kd noop db c s with
      | None => None
      | Some (cd, n, db', s') => match std_run kd noop db' r s' with Some (out, db2, s2) => Some ((cd, n) :: out, db2, s2) | None => None end
      end
  end.
