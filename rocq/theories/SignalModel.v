(** SignalBroker, KeySignalBroker and SlottedKeySignalBroker.  Source: /repo/tkrzw_thread_util.h:857-1047, 1583-1722.

    KeySignalBroker is modelled for any type of keys.  The map counts_ is a function with 0 for an absent key: an entry is made by "++" and erased
    rather than decreased to 0 (1681-1685), so that an entry is never 0.  With the keys of type unit it is SignalBroker, whose wait_count_ is the count of the only key:
    "wait_count_ != 0" for the presence, "wait_count_ = 0" for the erasing, "wait_count_--" for both branches of 1681-1685.  A
    SlottedKeySignalBroker hands every call over to the slot of the key (1706-1721).
    A thread has at most one Waiter at a time and does not call Send while it has one.  The counts do not overflow int32_t. *)
From Coq Require Import List Arith Bool.
Import ListNotations.

Section Broker.
  Variable K : Type.
  Variable keq : K -> K -> bool.
  (** Program points.  [inf]: the timeout is negative, that is UINT32MAX seconds (1667-1669), taken as no limit. *)
  Inductive pc :=
  | Idle
  | WLock (k : K)                      (** in the constructor, before notify_mutex_.lock_shared, 1657 *)
  | Held (k : K)                       (** a Waiter is there, Wait is not running *)
  | WMut (k : K) (inf : bool)          (** in Wait, before locking mutex_, 1672 *)
  | WInc (k : K) (inf : bool)          (** before counts_[key_]++, 1673 *)
  | WLoop (k : K) (inf : bool)         (** at the loop test, 1674 *)
  | WUnl (k : K) (inf : bool)          (** before notify_mutex_.unlock_shared, 1675 *)
  | WEnter (k : K) (inf : bool)        (** before cond_.wait_until, 1676 *)
  | Sleep (k : K) (inf : bool)         (** waiting at cond_, mutex_ unlocked *)
  | WWoke (k : K) (inf tmo : bool)     (** woken (or timed out), before mutex_ is locked again *)
  | WRel (k : K) (inf tmo : bool)      (** before notify_mutex_.lock_shared, 1677 *)
  | WChk (k : K) (inf tmo : bool)      (** before 1678 *)
  | WRet (k : K) (b : bool)            (** mutex_ is unlocked, Wait is about to return *)
  | SLock (k : K) (all : bool)         (** in Send, before locking mutex_, 1640 *)
  | SChk (k : K) (all : bool)          (** before counts_.erase, 1641 *)
  | SNot (k : K) (all : bool)          (** mutex_ unlocked, before locking notify_mutex_, 1645 *)
  | SGo (k : K) (all : bool)           (** before notify_all or notify_one, 1646-1650 *)
  | SRet (k : K) (b : bool).           (** all unlocked, Send is about to return *)

  Record sys := mkSys { y_c : K -> nat; y_pc : nat -> pc }.
  Definition upd (f : nat -> pc) (t : nat) (p : pc) : nat -> pc := fun u => if Nat.eqb u t then p else f u.
  Definition set_c (c : K -> nat) (k : K) (v : nat) : K -> nat := fun x => if keq k x then v else c x.
  (** Who holds mutex_ (std::mutex), notify_mutex_ in shared and in exclusive mode (SpinSharedMutex, C31). *)
  Definition has_mutex (p : pc) : bool :=
    match p with WInc _ _ | WLoop _ _ | WUnl _ _ | WEnter _ _ | WRel _ _ _ | WChk _ _ _ | SChk _ _ => true | _ => false end.
  Definition has_shared (p : pc) : bool :=
    match p with Held _ | WMut _ _ | WInc _ _ | WLoop _ _ | WUnl _ _ | WChk _ _ _ | WRet _ _ => true | _ => false end.
  Definition has_excl (p : pc) : bool := match p with SGo _ _ => true | _ => false end.
  Definition none (h : pc -> bool) (y : sys) (t : nat) : Prop := forall u, u <> t -> h (y_pc y u) = false.

  (** What the threads call and get. *)
  Inductive ev :=
  | EMake (t : nat) (k : K) | EDrop (t : nat)                  (** the constructor and the destructor of Waiter *)
  | EWait (t : nat) (k : K) (inf : bool) | EWaitRet (t : nat) (b : bool)
  | ESend (t : nat) (k : K) (all : bool) | ESendRet (t : nat) (b : bool)
  | ETau.
  (** notify_all wakes all threads at cond_, of whatever key. *)
  Definition wake (p : pc) : pc := match p with Sleep k inf => WWoke k inf false | _ => p end.
  Variable n : nat.
  Inductive step (y : sys) : ev -> sys -> Prop :=
  | st_make t k : t < n -> y_pc y t = Idle -> step y (EMake t k) (mkSys (y_c y) (upd (y_pc y) t (WLock k)))
  | st_made t k : y_pc y t = WLock k -> none has_excl y t -> step y ETau (mkSys (y_c y) (upd (y_pc y) t (Held k)))
  | st_drop t k : y_pc y t = Held k -> step y (EDrop t) (mkSys (y_c y) (upd (y_pc y) t Idle))
  | st_wait t k inf : y_pc y t = Held k -> step y (EWait t k inf) (mkSys (y_c y) (upd (y_pc y) t (WMut k inf)))
  | st_mut t k inf : y_pc y t = WMut k inf -> none has_mutex y t -> step y ETau (mkSys (y_c y) (upd (y_pc y) t (WInc k inf)))
  | st_inc t k inf : y_pc y t = WInc k inf -> step y ETau (mkSys (set_c (y_c y) k (S (y_c y k))) (upd (y_pc y) t (WLoop k inf)))
  | st_loop t k inf : y_pc y t = WLoop k inf ->
      step y ETau (mkSys (y_c y) (upd (y_pc y) t (if y_c y k =? 0 then WRet k true else WUnl k inf)))
  | st_unl t k inf : y_pc y t = WUnl k inf -> step y ETau (mkSys (y_c y) (upd (y_pc y) t (WEnter k inf)))
  | st_sleep t k inf : y_pc y t = WEnter k inf -> step y ETau (mkSys (y_c y) (upd (y_pc y) t (Sleep k inf)))
  | st_spurious t k inf : y_pc y t = Sleep k inf -> step y ETau (mkSys (y_c y) (upd (y_pc y) t (WWoke k inf false)))
  | st_timeout t k : y_pc y t = Sleep k false -> step y ETau (mkSys (y_c y) (upd (y_pc y) t (WWoke k false true)))
  | st_woke t k inf tmo : y_pc y t = WWoke k inf tmo -> none has_mutex y t -> step y ETau (mkSys (y_c y) (upd (y_pc y) t (WRel k inf tmo)))
  | st_rel t k inf tmo : y_pc y t = WRel k inf tmo -> none has_excl y t -> step y ETau (mkSys (y_c y) (upd (y_pc y) t (WChk k inf tmo)))
  | st_again t k inf : y_pc y t = WChk k inf false -> step y ETau (mkSys (y_c y) (upd (y_pc y) t (WLoop k inf)))
  | st_late t k inf : y_pc y t = WChk k inf true ->
      step y ETau (if y_c y k =? 0 then mkSys (y_c y) (upd (y_pc y) t (WRet k true))
                   else mkSys (set_c (y_c y) k (y_c y k - 1)) (upd (y_pc y) t (WRet k false)))
  | st_waitret t k b : y_pc y t = WRet k b -> step y (EWaitRet t b) (mkSys (y_c y) (upd (y_pc y) t (Held k)))
  | st_send t k all : t < n -> y_pc y t = Idle -> step y (ESend t k all) (mkSys (y_c y) (upd (y_pc y) t (SLock k all)))
  | st_slock t k all : y_pc y t = SLock k all -> none has_mutex y t -> step y ETau (mkSys (y_c y) (upd (y_pc y) t (SChk k all)))
  | st_schk t k all : y_pc y t = SChk k all ->
      step y ETau (if y_c y k =? 0 then mkSys (y_c y) (upd (y_pc y) t (SRet k false))
                   else mkSys (set_c (y_c y) k 0) (upd (y_pc y) t (SNot k all)))
  | st_snot t k all : y_pc y t = SNot k all -> none has_shared y t -> none has_excl y t -> step y ETau (mkSys (y_c y) (upd (y_pc y) t (SGo k all)))
  | st_all t k : y_pc y t = SGo k true -> step y ETau (mkSys (y_c y) (upd (fun u => wake (y_pc y u)) t (SRet k true)))
  | st_one t k v kv inf : y_pc y t = SGo k false -> y_pc y v = Sleep kv inf ->
      step y ETau (mkSys (y_c y) (upd (upd (y_pc y) v (wake (y_pc y v))) t (SRet k true)))
  | st_one0 t k : y_pc y t = SGo k false -> (forall v, wake (y_pc y v) = y_pc y v) -> step y ETau (mkSys (y_c y) (upd (y_pc y) t (SRet k true)))
  | st_sendret t k b : y_pc y t = SRet k b -> step y (ESendRet t b) (mkSys (y_c y) (upd (y_pc y) t Idle)).
  Inductive run : sys -> list ev -> sys -> Prop :=
  | run_nil y : run y [] y
  | run_tau y y1 tr y2 : run y tr y1 -> step y1 ETau y2 -> run y tr y2
  | run_ev y y1 tr e y2 : run y tr y1 -> e <> ETau -> step y1 e y2 -> run y (tr ++ [e]) y2.
  Definition init : sys := mkSys (fun _ => 0) (fun _ => Idle).
End Broker.
Arguments Idle {K}. Arguments WLock {K}. Arguments Held {K}. Arguments WMut {K}. Arguments WInc {K}. Arguments WLoop {K}. Arguments WUnl {K}. Arguments WEnter {K}.
Arguments Sleep {K}. Arguments WWoke {K}. Arguments WRel {K}. Arguments WChk {K}. Arguments WRet {K}. Arguments SLock {K}. Arguments SChk {K}. Arguments SNot {K}.
Arguments SGo {K}. Arguments SRet {K}. Arguments mkSys {K}. Arguments y_c {K}. Arguments y_pc {K}. Arguments upd {K}. Arguments set_c {K}. Arguments has_mutex {K}.
Arguments has_shared {K}. Arguments has_excl {K}. Arguments none {K}. Arguments EMake {K}. Arguments EDrop {K}. Arguments EWait {K}. Arguments EWaitRet {K}.
Arguments ESend {K}. Arguments ESendRet {K}. Arguments ETau {K}. Arguments wake {K}. Arguments step {K}. Arguments run {K}.
