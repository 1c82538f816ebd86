(** HashMutex of tkrzw_thread_util.h: slot locks for the buckets of a resizable hash table, as a transition system.

    Each access to the shared bucket count and each operation on a slot's mutex is one transition.  The slot mutexes are
    abstract reader-writer locks (that SpinSharedMutex implements one is C31). *)
From Coq Require Import NArith List Lia Arith Bool.
From Verif Require Import Bytes.
Import ListNotations.
Local Open Scope N_scope.

(** Exclusive or shared ownership: the *Shared variants of the methods differ only in calling lock_shared/unlock_shared.
    tkrzw_thread_util.h:1216-1264 *)
Inductive mode := MX | MS.

(** State of one slot mutex: an exclusive owner, or a number of shared owners. tkrzw_thread_util.h:604 *)
Record slot := mkSlot { sx : bool; sn : nat }.

(** lock() succeeds when nobody owns the slot, lock_shared() when nobody owns it exclusively; [None]: the caller has to wait.
    tkrzw_thread_util.h:110-120, 144-152 *)
Definition acq (md : mode) (m : slot) : option slot :=
  match md with
  | MX => if sx m then None else match sn m with O => Some (mkSlot true 0) | S _ => None end
  | MS => if sx m then None else Some (mkSlot false (S (sn m)))
  end.
(** unlock() and unlock_shared(). tkrzw_thread_util.h:136-138, 174-176 *)
Definition rel (md : mode) (m : slot) : slot :=
  match md with MX => mkSlot false 0 | MS => mkSlot (sx m) (pred (sn m)) end.

(** std::set<int32_t>: insertion into a strictly ascending list. tkrzw_thread_util.h:1322-1328, 1345-1349 *)
Fixpoint set_ins (x : N) (l : list N) : list N :=
  match l with
  | [] => [x]
  | y :: r => if x <? y then x :: l else if x =? y then l else y :: set_ins x r
  end.
Fixpoint slotset (l : list N) : list N :=
  match l with [] => [] | x :: r => set_ins x (slotset r) end.

(** Program points of a thread. [Own...]: the thread has returned from the locking method and owns its slots.
    tkrzw_thread_util.h:1216-1394 *)
Inductive pc :=
| Idle
| One (md : mode) (k : bytes)                    (** LockOne(data): about to load num_buckets_ (1218) *)
| OneGot (md : mode) (k : bytes) (n : N)         (** about to lock the slot (1221) *)
| OneChk (md : mode) (k : bytes) (n : N)         (** about to load num_buckets_ again (1222) *)
| OneRel (md : mode) (k : bytes) (n : N)         (** about to unlock and retry (1225) *)
| OwnOne (md : mode) (k : bytes) (b : N)         (** LockOne(data) has returned b (1223) *)
| Idx (md : mode) (b : N)                        (** LockOne(bucket_index) (1232) *)
| IdxGot (md : mode) (b : N) (n : N)             (** about to lock the slot (1237) *)
| IdxChk (md : mode) (b : N) (n : N)             (** about to load num_buckets_ again (1238) *)
| IdxRel (md : mode) (b : N)                     (** about to unlock and return false (1241) *)
| OwnIdx (md : mode) (b : N)                     (** LockOne(bucket_index) has returned true (1239) *)
| All (md : mode) (i : N)                        (** LockAll: about to lock slot i (1289-1291) *)
| OwnAll (md : mode)                             (** LockAll has returned *)
| UnAll (md : mode) (i : N)                      (** UnlockAll: about to unlock slot i-1 (1296-1298) *)
| Multi (md : mode) (ks : list bytes)            (** LockMulti: about to lock slot 0 (1318) *)
| MultiLoad (md : mode) (ks : list bytes)        (** about to load num_buckets_ (1321) *)
| MultiLock (md : mode) (ks : list bytes) (n : N) (done rest : list N)  (** in the loop over the slots (1330-1336) *)
| OwnMulti (md : mode) (ks : list bytes) (bs : list N)  (** LockMulti has returned bs (1340) *)
| UnMulti (md : mode) (rest : list N).           (** UnlockMulti: about to unlock the head of rest (1350-1352) *)

(** What a thread does next: lock a slot (blocking), unlock a slot, or go on according to the bucket count. *)
Inductive ins :=
| ILock (md : mode) (j : N) (p : pc)
| IUnlock (md : mode) (j : N) (p : pc)
| IGo (f : N -> pc)
| INone.

Section HashMutex.
(** num_slots_ and hash_func_. tkrzw_thread_util.h:598-602 *)
Variable ns : N.
Variable hash : bytes -> N -> N.

(** LockOne 1216-1228 and 1231-1243, UnlockOne 1246-1249, LockAll 1288-1292, UnlockAll 1295-1299, LockMulti 1316-1341,
    UnlockMulti 1344-1353 and their shared variants 1252-1285, 1302-1313, 1356-1394 of tkrzw_thread_util.h.
    Simplification: bucket indices passed to LockOne(bucket_index) are not negative (as in every caller, e.g.
    tkrzw_dbm_hash.cc:465 and tkrzw_dbm_tiny.cc:739). *)
Definition instr (p : pc) : ins :=
  match p with
  | Idle => INone
  | One md k => IGo (fun nb => OneGot md k nb)
  | OneGot md k n => ILock md (hash k n mod ns) (OneChk md k n)
  | OneChk md k n => IGo (fun nb => if nb =? n then OwnOne md k (hash k n) else OneRel md k n)
  | OneRel md k n => IUnlock md (hash k n mod ns) (One md k)
  | OwnOne md k b => IUnlock md (b mod ns) Idle
  | Idx md b => IGo (fun nb => if nb <=? b then Idle else IdxGot md b nb)
  | IdxGot md b n => ILock md (b mod ns) (IdxChk md b n)
  | IdxChk md b n => IGo (fun nb => if nb =? n then OwnIdx md b else IdxRel md b)
  | IdxRel md b => IUnlock md (b mod ns) Idle
  | OwnIdx md b => IUnlock md (b mod ns) Idle
  | All md i => if i <? ns then ILock md i (All md (i + 1)) else IGo (fun _ => OwnAll md)
  | OwnAll md => IGo (fun _ => UnAll md ns)
  | UnAll md i => if i =? 0 then IGo (fun _ => Idle) else IUnlock md (i - 1) (UnAll md (i - 1))
  | Multi md ks => ILock md 0 (MultiLoad md ks)
  | MultiLoad md ks => IGo (fun nb => MultiLock md ks nb [] (slotset (map (fun k => hash k nb mod ns) ks)))
  | MultiLock md ks n done (j :: r) =>
      if j =? 0 then IGo (fun _ => MultiLock md ks n (done ++ [j]) r) else ILock md j (MultiLock md ks n (done ++ [j]) r)
  | MultiLock md ks n done [] =>
      if existsb (N.eqb 0) done then IGo (fun _ => OwnMulti md ks (map (fun k => hash k n) ks))
      else IUnlock md 0 (OwnMulti md ks (map (fun k => hash k n) ks))
  | OwnMulti md ks bs => IGo (fun _ => UnMulti md (rev (slotset (map (fun b => b mod ns) bs))))
  | UnMulti md [] => IGo (fun _ => Idle)
  | UnMulti md (j :: r) => IUnlock md j (UnMulti md r)
  end.

(** num_buckets_, the slots and the program points of the threads. tkrzw_thread_util.h:596-604 *)
Record sys := mkSys { nb : N; sl : N -> slot; spc : nat -> pc }.

Definition upd (f : nat -> pc) (t : nat) (p : pc) : nat -> pc := fun i => if Nat.eqb i t then p else f i.
Definition updS (f : N -> slot) (j : N) (m : slot) : N -> slot := fun i => if i =? j then m else f i.

(** Which program points may call Rehash: [may]. *)
Variable may : pc -> bool.

(** Steps of thread t. Rehash: tkrzw_thread_util.h:1206-1208 *)
Inductive step (t : nat) : sys -> sys -> Prop :=
| s_call_one : forall n f g md k, g t = Idle -> step t (mkSys n f g) (mkSys n f (upd g t (One md k)))
| s_call_idx : forall n f g md b, g t = Idle -> step t (mkSys n f g) (mkSys n f (upd g t (Idx md b)))
| s_call_all : forall n f g md, g t = Idle -> step t (mkSys n f g) (mkSys n f (upd g t (All md 0)))
| s_call_multi : forall n f g md ks, g t = Idle -> step t (mkSys n f g) (mkSys n f (upd g t (Multi md ks)))
| s_lock : forall n f g md j p m, instr (g t) = ILock md j p -> acq md (f j) = Some m ->
    step t (mkSys n f g) (mkSys n (updS f j m) (upd g t p))
| s_unlock : forall n f g md j p, instr (g t) = IUnlock md j p ->
    step t (mkSys n f g) (mkSys n (updS f j (rel md (f j))) (upd g t p))
| s_go : forall n f g h, instr (g t) = IGo h -> step t (mkSys n f g) (mkSys n f (upd g t (h n)))
| s_rehash : forall n f g n', may (g t) = true -> step t (mkSys n f g) (mkSys n' f g).

(** All executions of [nt] threads from a fresh HashMutex. tkrzw_thread_util.h:1184-1188 *)
Inductive reach (nt : nat) : sys -> Prop :=
| r_init : forall n, reach nt (mkSys n (fun _ => mkSlot false 0) (fun _ => Idle))
| r_step : forall s t s', reach nt s -> (t < nt)%nat -> step t s s' -> reach nt s'.

End HashMutex.

(** Rehash is called by a thread that has locked all slots exclusively. The header asks only for LockOne
    (tkrzw_thread_util.h:495); in the repository it is called while no other thread can use the mutex
    (tkrzw_dbm_hash.cc:1230, tkrzw_dbm_tiny.cc:524). *)
Definition may_all (p : pc) : bool := match p with OwnAll MX => true | _ => false end.
(** The precondition as documented. tkrzw_thread_util.h:493-497 *)
Definition may_one (p : pc) : bool := match p with OwnAll MX | OwnOne MX _ _ => true | _ => false end.
