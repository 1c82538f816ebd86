(** ShardDBM.  Source: /repo/tkrzw_dbm_shard.cc and /repo/tkrzw_dbm_shard.h.
    The databases of the shards are any one kind of database of DbmModel.v for the operations on records, and ordered maps acting as in
    OmapHist.v for the iterator.  PolyDBM, which only forwards calls, is left out, and so are opening, closing, the update logger and the files.
    The check that the database is open is left out: before Open the code divides by the number of shards, zero, in CompareExchangeMulti, and
    reads the front of an empty vector in MakeIterator and ProcessFirst. *)
From Coq Require Import List NArith Bool Arith Permutation.
Import ListNotations.
From Verif Require Import Bytes BytesOrder DbmModel StatusModel OmapSpec OmapHist.
Local Open Scope nat_scope.

Fixpoint set_nth {A} (l : list A) (i : nat) (x : A) : list A :=
  match l, i with [], _ => [] | _ :: r, O => x :: r | y :: r, S j => y :: set_nth r j x end.

Section Shards.
  Variable D : dbm.
  (** [h] is SecondaryHash(key, dbms_.size()), tkrzw_dbm_common_impl.h:52-59 (HashUtilModel.v). *)
  Variable h : bytes -> nat.
  Notation shards := (list (d_st D)).
  (** Process, tkrzw_dbm_shard.cc:152-159.  The index is always in range; the other case is a filler. *)
  Definition sh_process {S} (ds : shards) (k : bytes) (p : proc S) (w : bool) (s : S) : code * shards * S :=
    match nth_error ds (h k) with
    | Some d => let '(c, d', s') := d_process D d k p w s in (c, set_nth ds (h k) d', s')
    | None => (SYSTEM_ERROR, ds, s)
    end.
  (** Get, Set, Remove and Append, tkrzw_dbm_shard.cc:161-196: those of the database of the shard. *)
  Definition sh_get (ds : shards) (k old : bytes) : code * bytes * shards :=
    match nth_error ds (h k) with Some d => let '(c, v, d') := op_get D d k old in (c, v, set_nth ds (h k) d') | None => (SYSTEM_ERROR, old, ds) end.
  Definition sh_set (ds : shards) (k value : bytes) (overwrite : bool) (old : bytes) : code * bytes * shards :=
    match nth_error ds (h k) with Some d => let '(c, v, d') := op_set D d k value overwrite old in (c, v, set_nth ds (h k) d') | None => (SYSTEM_ERROR, old, ds) end.
  Definition sh_remove (ds : shards) (k old : bytes) : code * bytes * shards :=
    match nth_error ds (h k) with Some d => let '(c, v, d') := op_remove D d k old in (c, v, set_nth ds (h k) d') | None => (SYSTEM_ERROR, old, ds) end.
  Definition sh_append (ds : shards) (k value delim : bytes) : code * shards :=
    match nth_error ds (h k) with Some d => let '(c, d') := op_append D d k value delim in (c, set_nth ds (h k) d') | None => (SYSTEM_ERROR, ds) end.
  (** What the wrapped processors of ProcessMulti reach: the shards, proc_status and the state of the processors given.  The entry of shard 0
      is not touched by them: its database is in the middle of its own call. *)
  Definition wst (S : Type) : Type := shards * code * S.
  Definition lift0 {S} (p : proc S) : proc (wst S) :=
    mkProc (fun k v '(ds, c, s) => let '(a, s') := on_full p k v s in (a, (ds, c, s')))
           (fun k '(ds, c, s) => let '(a, s') := on_empty p k s in (a, (ds, c, s'))).
  (** Delegator, tkrzw_dbm_shard.cc:217-230. *)
  Definition delegate {S} (i : nat) (p : proc S) (w : bool) (k : bytes) (st : wst S) : action * wst S :=
    let '(ds, c, s) := st in
    match nth_error ds i with
    | Some d => let '(c1, d', s') := d_process D d k p w s in (ANoop, (set_nth ds i d', both c c1, s'))
    | None => (ANoop, st)
    end.
  Definition delegator {S} (i : nat) (p : proc S) (w : bool) : proc (wst S) :=
    mkProc (fun k _ st => delegate i p w k st) (fun k st => delegate i p w k st).
  (** The wrapping of a pair, tkrzw_dbm_shard.cc:233-246. *)
  Definition wrap {S} (w : bool) (kp : bytes * proc S) : bytes * proc (wst S) :=
    (fst kp, if h (fst kp) =? 0 then lift0 (snd kp) else delegator (h (fst kp)) (snd kp) w).
  (** ProcessMulti, tkrzw_dbm_shard.cc:208-250. *)
  Definition sh_multi {S} (ds : shards) (l : list (bytes * proc S)) (w : bool) (s : S) : code * shards * S :=
    match ds with
    | [] => (SYSTEM_ERROR, ds, s)
    | d0 :: _ =>
        let '(c, d0', (ds', c', s')) := d_multi D d0 (map (wrap w) l) w (ds, SUCCESS, s) in
        (both c c', set_nth ds' 0 d0', s')
    end.
  (** CompareExchangeMulti, tkrzw_dbm_shard.cc:252-378.  A command is a shard with its conditions and its updates; the processors of a command
      share proc_status and may run the next command, which is on a later shard. *)
  Notation command := (nat * list (bytes * sview) * list (bytes * sview))%type.
  Definition cst : Type := shards * code.
  Definition go_next (next : option (cst -> code * cst)) (st : cst) : cst :=
    match next with None => st | Some f => let '(c, (ds', c')) := f st in (ds', both c' c) end.
  (** Checker, lines 274-309. *)
  Definition checker (e : sview) (next : option (cst -> code * cst)) : proc cst :=
    mkProc (fun _ v st =>
              if negb (code_eqb (snd st) SUCCESS) then (ANoop, st)
              else if match e with VNull => true | VAny => false | VStr x => negb (beqb x v) end then (ANoop, (fst st, INFEASIBLE_ERROR))
              else (ANoop, go_next next st))
           (fun _ st =>
              if negb (code_eqb (snd st) SUCCESS) then (ANoop, st)
              else match e with VNull => (ANoop, go_next next st) | _ => (ANoop, (fst st, INFEASIBLE_ERROR)) end).
  (** Setter, lines 311-343: ANY_DATA is a value like others. *)
  Definition setter (v : sview) (next : option (cst -> code * cst)) : proc cst :=
    mkProc (fun _ _ st =>
              if negb (code_eqb (snd st) SUCCESS) then (ANoop, st)
              else let st' := go_next next st in
                   if negb (code_eqb (snd st') SUCCESS) then (ANoop, st')
                   else (match v with VNull => ARemove | VAny => ASet any_bytes | VStr x => ASet x end, st'))
           (fun _ st =>
              if negb (code_eqb (snd st) SUCCESS) then (ANoop, st)
              else let st' := go_next next st in
                   if negb (code_eqb (snd st') SUCCESS) then (ANoop, st')
                   else (match v with VNull => ANoop | VAny => ASet any_bytes | VStr x => ASet x end, st')).
  (** Lines 346-372: the next command is run by the last condition of this one or, if there is none, by the first update. *)
  Fixpoint last_checks (next : option (cst -> code * cst)) (l : list (bytes * sview)) : list (bytes * proc cst) :=
    match l with
    | [] => []
    | [(k, e)] => [(k, checker e next)]
    | (k, e) :: r => (k, checker e None) :: last_checks next r
    end.
  Definition first_sets (next : option (cst -> code * cst)) (l : list (bytes * sview)) : list (bytes * proc cst) :=
    match l with [] => [] | (k, v) :: r => (k, setter v next) :: map (fun kv => (fst kv, setter (snd kv) None)) r end.
  Definition params (next : option (cst -> code * cst)) (exp des : list (bytes * sview)) : list (bytes * proc cst) :=
    last_checks next exp ++ first_sets (match exp with [] => next | _ => None end) des.
  Fixpoint run_commands (l : list command) (st : cst) : code * cst :=
    match l with
    | [] => (SUCCESS, st)
    | (i, exp, des) :: r =>
        match nth_error (fst st) i with
        | None => (SYSTEM_ERROR, st)
        | Some d =>
            let next := match r with [] => None | _ => Some (run_commands r) end in
            let '(c, d', (ds', c')) := d_multi D d (params next exp des) true st in
            (c, (set_nth ds' i d', c'))
        end
    end.
  (** Lines 255-268: the conditions and the updates by shard, in ascending order of shards (std::map), without the shards having none. *)
  Definition on_shard (i : nat) (l : list (bytes * sview)) : list (bytes * sview) := filter (fun kv => h (fst kv) =? i) l.
  Definition commands (n : nat) (exp des : list (bytes * sview)) : list command :=
    filter (fun c => match c with (_, [], []) => false | _ => true end) (map (fun i => (i, on_shard i exp, on_shard i des)) (seq 0 n)).
  Definition sh_cas_multi (ds : shards) (exp des : list (bytes * sview)) : code * shards :=
    match commands (length ds) exp des with
    | [] => (SUCCESS, ds)
    | l => let '(c, (ds', c')) := run_commands l (ds, SUCCESS) in (both c c', ds')
    end.
  (** Count, tkrzw_dbm_shard.cc:404-418; [count] is that of a shard. *)
  Fixpoint sh_count (count : d_st D -> code * nat) (ds : shards) (acc : nat) : code * nat :=
    match ds with
    | [] => (SUCCESS, acc)
    | d :: r => let '(c, n) := count d in if code_eqb c SUCCESS then sh_count count r (acc + n) else (c, acc)
    end.
  (** ProcessFirst, tkrzw_dbm_shard.cc:198-206: Iterator::First, 657-677, and Iterator::Process, 830-867.  [peek] is First and Get of the
      iterator of a shard.  The record taken is the one with the least key, as at the front of the heap; Process of its iterator is Process
      of its key. *)
  Variable peek : d_st D -> code * bytes * bytes.
  Variable cmp : bytes -> bytes -> comparison.
  Fixpoint peek_all (ds : shards) (best : option bytes) : code * option bytes :=
    match ds with
    | [] => (SUCCESS, best)
    | d :: r =>
        let '(c, k, _) := peek d in
        if code_eqb c SUCCESS then
          peek_all r (match best with Some b => match cmp k b with Lt => Some k | _ => Some b end | None => Some k end)
        else if code_eqb c NOT_FOUND_ERROR then peek_all r best
        else (c, None)
    end.
  Definition sh_first {S} (ds : shards) (p : proc S) (w : bool) (s : S) : code * shards * S :=
    match peek_all ds None with
    | (SUCCESS, Some k) => sh_process ds k p w s
    | (SUCCESS, None) => (NOT_FOUND_ERROR, ds, s)
    | (c, _) => (c, ds, s)
    end.
End Shards.

(** * The iterator *)
Section Iter.
  Variable cmp : bytes -> bytes -> comparison.
  Variable T : Type.
  (** One iterator: the databases of the shards, whose iterators number 0 are those of the slots; the key and the value last retrieved in each
      slot; heap_, of indices of slots; asc_. *)
  Record sit := mkSit { t_dbs : list ost; t_slots : list (bytes * bytes); t_heap : list nat; t_asc : bool }.
  Definition slot_key (sl : list (bytes * bytes)) (i : nat) : bytes := fst (nth i sl ([], [])).
  (** ShardSlotComparator, tkrzw_dbm_shard.h:188-210: whether slot [a] is before slot [b] in the heap order. *)
  Definition slot_lt (asc : bool) (sl : list (bytes * bytes)) (a b : nat) : Prop :=
    if asc then cmp (slot_key sl a) (slot_key sl b) = Gt else cmp (slot_key sl a) (slot_key sl b) = Lt.
  (** std::is_heap, and what the standard says of std::push_heap and std::pop_heap given a heap; as in TopkModel.v. *)
  Definition heaped (asc : bool) (sl : list (bytes * bytes)) (hp : list nat) : Prop :=
    forall i x p, 0 < i -> nth_error hp i = Some x -> nth_error hp ((i - 1) / 2) = Some p -> ~ slot_lt asc sl p x.
  (** None: undefined, as the range was not a heap. *)
  Definition pushed (asc : bool) (sl : list (bytes * bytes)) (hp : list nat) (x : nat) (r : option (list nat)) : Prop :=
    match r with Some hp' => heaped asc sl hp /\ Permutation (x :: hp) hp' /\ heaped asc sl hp' | None => ~ heaped asc sl hp end.
  Definition popped (asc : bool) (sl : list (bytes * bytes)) (hp : list nat) (r : option (nat * list nat)) : Prop :=
    match r with
    | Some (x, hp') => heaped asc sl hp /\ hd_error hp = Some x /\ Permutation hp (x :: hp') /\ heaped asc sl hp'
    | None => ~ heaped asc sl hp
    end.
  (** The calls; [T] is the type of the states of processors. *)
  Inductive scall := SFirst | SLast | SJump (k : bytes) | SLower (k : bytes) (inclusive : bool) | SUpper (k : bytes) (inclusive : bool)
  | SNext | SPrev | SGet | SSet (v : bytes) | SRemove | SProcess (p : proc T) (w : bool) (st : T).
  (** What a call returns.  UUndef: undefined behaviour. *)
  Inductive sres := UCode (c : code) | UGet (c : code) (r : bytes * bytes) | UProc (c : code) (st : T) | UUndef.
  Definition get_kv : proc (bytes * bytes) := mkProc (fun k v _ => (ANoop, (k, v))) (fun _ s => (ANoop, s)).
  (** The moves of the iterators of the slots. *)
  Inductive smove := MFirst | MLast | MJump (k : bytes) | MLower (k : bytes) (inclusive : bool) | MUpper (k : bytes) (inclusive : bool).
  Definition mcall (m : smove) : ocall (bytes * bytes) :=
    match m with
    | MFirst => KItFirst 0 | MLast => KItLast 0 | MJump k => KItJump 0 k | MLower k i => KItLower 0 k i | MUpper k i => KItUpper 0 k i
    end.
  Definition jumping (m : smove) : bool := match m with MFirst | MLast => false | _ => true end.
  (** The loop over the slots from number [i] on: the move, the retrieval, and the insertion into the heap; First, Last, Jump, JumpLower and
      JumpUpper, tkrzw_dbm_shard.cc:657-768.  First and Last move all of the iterators before they retrieve any: as the moves of the iterators
      of one shard do not concern the others, moving and retrieving in one loop is the same.
      [alias]: the key of the move is a view of the key of that slot; once the slot holds another key, using the view again is undefined. *)
  Inductive fill (m : smove) (asc : bool) (alias : option nat) : nat -> sit -> option code -> sit -> Prop :=
  | fl_end i t : i = length (t_dbs t) -> fill m asc alias i t (Some SUCCESS) t
  | fl_move i t o cd o1 x : nth_error (t_dbs t) i = Some o -> ostep cmp _ (mcall m) o ([], []) cd o1 x -> cd <> SUCCESS ->
      (jumping m = true -> cd <> NOT_FOUND_ERROR) ->
      fill m asc alias i t (Some cd) (mkSit (set_nth (t_dbs t) i o1) (t_slots t) (if jumping m then t_heap t else []) (t_asc t))
  | fl_none i t o o1 x r t' : nth_error (t_dbs t) i = Some o -> ostep cmp _ (mcall m) o ([], []) NOT_FOUND_ERROR o1 x -> jumping m = true ->
      fill m asc alias (S i) (mkSit (set_nth (t_dbs t) i o1) (t_slots t) (t_heap t) (t_asc t)) r t' -> fill m asc alias i t r t'
  | fl_get_fail i t o o1 x cd o2 kv : nth_error (t_dbs t) i = Some o -> ostep cmp _ (mcall m) o ([], []) SUCCESS o1 x ->
      ostep cmp _ (KItProcess 0 get_kv false) o1 ([], []) cd o2 kv -> cd <> SUCCESS -> cd <> NOT_FOUND_ERROR ->
      fill m asc alias i t (Some cd) (mkSit (set_nth (t_dbs t) i o2) (t_slots t) [] (t_asc t))
  | fl_empty i t o o1 x o2 kv r t' : nth_error (t_dbs t) i = Some o -> ostep cmp _ (mcall m) o ([], []) SUCCESS o1 x ->
      ostep cmp _ (KItProcess 0 get_kv false) o1 ([], []) NOT_FOUND_ERROR o2 kv ->
      fill m asc alias (S i) (mkSit (set_nth (t_dbs t) i o2) (t_slots t) (t_heap t) (t_asc t)) r t' -> fill m asc alias i t r t'
  | fl_alias i t o o1 x o2 kv : nth_error (t_dbs t) i = Some o -> ostep cmp _ (mcall m) o ([], []) SUCCESS o1 x ->
      ostep cmp _ (KItProcess 0 get_kv false) o1 ([], []) SUCCESS o2 kv ->
      alias = Some i -> S i < length (t_dbs t) -> fst kv <> slot_key (t_slots t) i -> fill m asc alias i t None t
  | fl_push_undef i t o o1 x o2 kv : nth_error (t_dbs t) i = Some o -> ostep cmp _ (mcall m) o ([], []) SUCCESS o1 x ->
      ostep cmp _ (KItProcess 0 get_kv false) o1 ([], []) SUCCESS o2 kv ->
      pushed asc (set_nth (t_slots t) i kv) (t_heap t) i None -> fill m asc alias i t None t
  | fl_push i t o o1 x o2 kv hp' r t' : nth_error (t_dbs t) i = Some o -> ostep cmp _ (mcall m) o ([], []) SUCCESS o1 x ->
      ostep cmp _ (KItProcess 0 get_kv false) o1 ([], []) SUCCESS o2 kv ->
      ~ (alias = Some i /\ S i < length (t_dbs t) /\ fst kv <> slot_key (t_slots t) i) ->
      pushed asc (set_nth (t_slots t) i kv) (t_heap t) i (Some hp') ->
      fill m asc alias (S i) (mkSit (set_nth (t_dbs t) i o2) (set_nth (t_slots t) i kv) hp' (t_asc t)) r t' -> fill m asc alias i t r t'.
  Definition cleared (t : sit) : sit := mkSit (t_dbs t) (t_slots t) [] (t_asc t).
  Definition with_asc (t : sit) (r : option code) (asc : bool) : sit :=
    match r with Some SUCCESS => mkSit (t_dbs t) (t_slots t) (t_heap t) asc | _ => t end.
  Definition res_of (r : option code) : sres := match r with Some c => UCode c | None => UUndef end.
  (** The retrieval at the slot taken from the heap, and its return to the heap: lines 784-797, 814-827, 858-865 and 903-910.  The first is the
      status of the retrieval. *)
  Inductive refill (asc : bool) (t : sit) (i : nat) (hp : list nat) : option code -> sit -> Prop :=
  | rf_end o cd o1 kv : nth_error (t_dbs t) i = Some o -> ostep cmp _ (KItProcess 0 get_kv false) o ([], []) cd o1 kv -> cd <> SUCCESS ->
      refill asc t i hp (Some cd) (mkSit (set_nth (t_dbs t) i o1) (t_slots t) hp (t_asc t))
  | rf_undef o o1 kv : nth_error (t_dbs t) i = Some o -> ostep cmp _ (KItProcess 0 get_kv false) o ([], []) SUCCESS o1 kv ->
      pushed asc (set_nth (t_slots t) i kv) hp i None -> refill asc t i hp None t
  | rf_push o o1 kv hp' : nth_error (t_dbs t) i = Some o -> ostep cmp _ (KItProcess 0 get_kv false) o ([], []) SUCCESS o1 kv ->
      pushed asc (set_nth (t_slots t) i kv) hp i (Some hp') ->
      refill asc t i hp (Some SUCCESS) (mkSit (set_nth (t_dbs t) i o1) (set_nth (t_slots t) i kv) hp' (t_asc t)).
  Definition set_db (t : sit) (i : nat) (o : ost) : sit := mkSit (set_nth (t_dbs t) i o) (t_slots t) (t_heap t) (t_asc t).
  Definition at_end (c : code) : code := if code_eqb c NOT_FOUND_ERROR then SUCCESS else c.
  (** The end of Next and Previous, lines 782-798 and 812-828. *)
  Inductive advance (mv : ocall (bytes * bytes)) (asc : bool) (t : sit) : sres -> sit -> Prop :=
  | av_undef : popped asc (t_slots t) (t_heap t) None -> advance mv asc t UUndef t
  | av_fail i hp o cd o1 x : popped asc (t_slots t) (t_heap t) (Some (i, hp)) -> nth_error (t_dbs t) i = Some o ->
      ostep cmp _ mv o ([], []) cd o1 x -> cd <> SUCCESS ->
      advance mv asc t (UCode (at_end cd)) (mkSit (set_nth (t_dbs t) i o1) (t_slots t) hp (t_asc t))
  | av_move i hp o o1 x r t' : popped asc (t_slots t) (t_heap t) (Some (i, hp)) -> nth_error (t_dbs t) i = Some o ->
      ostep cmp _ mv o ([], []) SUCCESS o1 x -> refill asc (set_db t i o1) i hp r t' ->
      advance mv asc t (match r with Some c => UCode (at_end c) | None => UUndef end) t'.
  (** The end of Process and Remove, lines 856-866 and 901-911: the heap is always taken for an ascending one. *)
  Inductive after_removal (t : sit) : option unit -> sit -> Prop :=
  | ar_undef : popped true (t_slots t) (t_heap t) None -> after_removal t None t
  | ar_pop i hp r t' : popped true (t_slots t) (t_heap t) (Some (i, hp)) -> refill true t i hp r t' ->
      after_removal t (match r with Some _ => Some tt | None => None end) t'.
  (** The Checker of Process, lines 835-854: what the processor does, and whether it said REMOVE. *)
  Definition watch (p : proc T) : proc (T * bool) :=
    mkProc (fun k v '(s, b) => let '(a, s') := on_full p k v s in (a, (s', match a with ARemove => true | _ => b end)))
           (fun k '(s, b) => let '(a, s') := on_empty p k s in (a, (s', b))).
  Inductive sit_step : scall -> sit -> sres -> sit -> Prop :=
  | ss_first t r t' : fill MFirst true None 0 (cleared t) r t' -> sit_step SFirst t (res_of r) (with_asc t' r true)
  | ss_last t r t' : fill MLast false None 0 (cleared t) r t' -> sit_step SLast t (res_of r) (with_asc t' r false)
  | ss_jump k t r t' : fill (MJump k) true None 0 (cleared t) r t' -> sit_step (SJump k) t (res_of r) (with_asc t' r true)
  | ss_lower k b t r t' : fill (MLower k b) false None 0 (cleared t) r t' -> sit_step (SLower k b) t (res_of r) (with_asc t' r false)
  | ss_upper k b t r t' : fill (MUpper k b) true None 0 (cleared t) r t' -> sit_step (SUpper k b) t (res_of r) (with_asc t' r true)
  (** Next, tkrzw_dbm_shard.cc:770-798. *)
  | ss_next_none t : t_heap t = [] -> sit_step SNext t (UCode NOT_FOUND_ERROR) t
  | ss_next t r t' : t_heap t <> [] -> t_asc t = true -> advance (KItNext 0) true t r t' -> sit_step SNext t r t'
  | ss_next_turn_fail t f r t1 : hd_error (t_heap t) = Some f -> t_asc t = false ->
      fill (MJump (slot_key (t_slots t) f)) true (Some f) 0 (cleared t) r t1 -> r <> Some SUCCESS -> sit_step SNext t (res_of r) t1
  | ss_next_turn_empty t f t1 : hd_error (t_heap t) = Some f -> t_asc t = false ->
      fill (MJump (slot_key (t_slots t) f)) true (Some f) 0 (cleared t) (Some SUCCESS) t1 -> t_heap t1 = [] ->
      sit_step SNext t (UCode NOT_FOUND_ERROR) (with_asc t1 (Some SUCCESS) true)
  | ss_next_turn t f t1 r t' : hd_error (t_heap t) = Some f -> t_asc t = false ->
      fill (MJump (slot_key (t_slots t) f)) true (Some f) 0 (cleared t) (Some SUCCESS) t1 -> t_heap t1 <> [] ->
      advance (KItNext 0) true (with_asc t1 (Some SUCCESS) true) r t' -> sit_step SNext t r t'
  (** Previous, tkrzw_dbm_shard.cc:800-828. *)
  | ss_prev_none t : t_heap t = [] -> sit_step SPrev t (UCode NOT_FOUND_ERROR) t
  | ss_prev t r t' : t_heap t <> [] -> t_asc t = false -> advance (KItPrev 0) false t r t' -> sit_step SPrev t r t'
  | ss_prev_turn_fail t f r t1 : hd_error (t_heap t) = Some f -> t_asc t = true ->
      fill (MLower (slot_key (t_slots t) f) true) false (Some f) 0 (cleared t) r t1 -> r <> Some SUCCESS -> sit_step SPrev t (res_of r) t1
  | ss_prev_turn_empty t f t1 : hd_error (t_heap t) = Some f -> t_asc t = true ->
      fill (MLower (slot_key (t_slots t) f) true) false (Some f) 0 (cleared t) (Some SUCCESS) t1 -> t_heap t1 = [] ->
      sit_step SPrev t (UCode NOT_FOUND_ERROR) (with_asc t1 (Some SUCCESS) false)
  | ss_prev_turn t f t1 r t' : hd_error (t_heap t) = Some f -> t_asc t = true ->
      fill (MLower (slot_key (t_slots t) f) true) false (Some f) 0 (cleared t) (Some SUCCESS) t1 -> t_heap t1 <> [] ->
      advance (KItPrev 0) false (with_asc t1 (Some SUCCESS) false) r t' -> sit_step SPrev t r t'
  (** Get, tkrzw_dbm_shard.cc:869-881. *)
  | ss_get_none t : t_heap t = [] -> sit_step SGet t (UGet NOT_FOUND_ERROR ([], [])) t
  | ss_get t f : hd_error (t_heap t) = Some f -> sit_step SGet t (UGet SUCCESS (nth f (t_slots t) ([], []))) t
  (** Set, tkrzw_dbm_shard.cc:883-894; Iterator::Set of a shard makes the processor set the value. *)
  | ss_set_none v t : t_heap t = [] -> sit_step (SSet v) t (UCode NOT_FOUND_ERROR) t
  | ss_set v t f o cd o' st : hd_error (t_heap t) = Some f -> nth_error (t_dbs t) f = Some o ->
      ostep cmp _ (KItProcess 0 (pr_set v true) true) o (SUCCESS, []) cd o' st ->
      sit_step (SSet v) t (UCode (both cd (fst st)))
        (let t1 := set_db t f o' in
         if code_eqb (both cd (fst st)) SUCCESS then mkSit (t_dbs t1) (set_nth (t_slots t) f (slot_key (t_slots t) f, v)) (t_heap t) (t_asc t) else t1)
  (** Remove, tkrzw_dbm_shard.cc:896-913. *)
  | ss_remove_none t : t_heap t = [] -> sit_step SRemove t (UCode NOT_FOUND_ERROR) t
  | ss_remove_fail t f o cd o' st : hd_error (t_heap t) = Some f -> nth_error (t_dbs t) f = Some o ->
      ostep cmp _ (KItProcess 0 pr_remove true) o (SUCCESS, []) cd o' st -> both cd (fst st) <> SUCCESS ->
      sit_step SRemove t (UCode (both cd (fst st))) (set_db t f o')
  | ss_remove t f o cd o' st r t' : hd_error (t_heap t) = Some f -> nth_error (t_dbs t) f = Some o ->
      ostep cmp _ (KItProcess 0 pr_remove true) o (SUCCESS, []) cd o' st -> both cd (fst st) = SUCCESS ->
      after_removal (set_db t f o') r t' ->
      sit_step SRemove t (match r with Some _ => UCode SUCCESS | None => UUndef end) t'
  (** Process, tkrzw_dbm_shard.cc:830-867. *)
  | ss_proc_none p w s t : t_heap t = [] -> sit_step (SProcess p w s) t (UProc NOT_FOUND_ERROR s) t
  | ss_proc p w s t f o cd o' s' b : hd_error (t_heap t) = Some f -> nth_error (t_dbs t) f = Some o ->
      ostep cmp _ (KItProcess 0 (watch p) w) o (s, false) cd o' (s', b) -> code_eqb cd SUCCESS && w && b = false ->
      sit_step (SProcess p w s) t (UProc cd s') (set_db t f o')
  | ss_proc_removed p w s t f o o' s' r t' : hd_error (t_heap t) = Some f -> nth_error (t_dbs t) f = Some o ->
      ostep cmp _ (KItProcess 0 (watch p) w) o (s, false) SUCCESS o' (s', true) -> w = true ->
      after_removal (set_db t f o') r t' ->
      sit_step (SProcess p w s) t (match r with Some _ => UProc SUCCESS s' | None => UUndef end) t'.
  Inductive sit_runs : list scall -> sit -> list sres -> sit -> Prop :=
  | sr_nil t : sit_runs [] t [] t
  | sr_cons c cs t r t1 rs t2 : sit_step c t r t1 -> sit_runs cs t1 rs t2 -> sit_runs (c :: cs) t (r :: rs) t2.
  (** The constructor, lines 632-649; the slots hold empty strings. *)
  Definition sit_new (dbs : list ost) : sit := mkSit dbs (repeat ([], []) (length dbs)) [] false.
  (** ProcessEach, tkrzw_dbm_shard.cc:380-402: the processor is called as for an absent record with an empty key at first and at last
      (the key passed is the string of NOOP, which the model does not have: the empty string stands for it). *)
  Fixpoint each_all {U} (ls : list omap) (p : proc U) (w : bool) (s : U) : list omap * U :=
    match ls with [] => ([], s) | l :: r => let '(l', s1) := o_each l p w s in let '(r', s2) := each_all r p w s1 in (l' :: r', s2) end.
  Definition sh_each {U} (ls : list omap) (p : proc U) (w : bool) (s : U) : list omap * U :=
    let '(ls', s1) := each_all ls p w (snd (on_empty p [] s)) in (ls', snd (on_empty p [] s1)).
End Iter.
