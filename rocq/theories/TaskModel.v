(** TaskQueue and WaitCounter of tkrzw_thread_util.h as transition systems.

    Threads 0 .. nw-1 are the workers started by Start, thread nw is the owner of the queue (the only one that calls
    Stop, as AsyncDBM's destructor does, tkrzw_dbm_async.cc:31-33), all other threads only call Add.
    Each access to shared data outside a critical section is one transition; a critical section without waiting (Add, the
    emptiness test of Stop) is one transition that needs the mutex to be free. A condition variable is the set of threads
    blocked on it; spurious wake-ups are possible.
    Simplifications: num_tasks_ (only reported by GetSize) is left out; restarting a stopped queue is not modelled. *)
From Coq Require Import List Arith Bool ZArith.
Import ListNotations.

(** Program points. Worker: lambda in Start, tkrzw_thread_util.h:1489-1507. Add: 1532-1539. Stop: 1511-1530.
    The list carried by the points of Stop is a ghost: the tasks added before the call. *)
Inductive pc :=
| WLoop                      (** about to test running_ (1490) *)
| WLock                      (** about to lock the mutex (1493) *)
| WCheck                     (** owns the mutex, about to test the queue (1494) *)
| WDo (k : nat)              (** about to do the task it popped (1502-1504) *)
| WPred                      (** owns the mutex, about to evaluate the waiting condition (1495) *)
| WSleep                     (** owns the mutex, has found the condition false, about to block *)
| WBlocked                   (** blocked on the condition variable *)
| WWake                      (** woken up, about to lock the mutex again *)
| WExit                      (** the thread has ended *)
| CIdle
| CPush (k : nat)            (** Add: about to push (1533-1537) *)
| CNotify                    (** Add: about to call notify_one (1538) *)
| SHead (b : list nat)                   (** Stop: head of the loop (1513) *)
| SCheck (b : list nat)                  (** Stop: about to test the queue (1514-1519) *)
| SNotify (b : list nat)                 (** Stop: about to notify inside the loop (1520) *)
| SStore (late : bool) (b : list nat)    (** Stop: about to clear running_ (1523); late: left the loop by timeout *)
| SNotifyAll (late : bool) (b : list nat)  (** Stop: about to notify (1524) *)
| SJoin (late : bool) (b : list nat)     (** Stop: joining the workers (1525-1527) *)
| SDone (late : bool) (b : list nat).    (** Stop has returned *)

(** queue_, running_, mutex_ (owner), program points; ghosts: all tasks added, popped and done so far, in order.
    tkrzw_thread_util.h:793-805 *)
Record sys := mkSys { q : list nat; running : bool; mtx : option nat; pcs : nat -> pc;
                      added : list nat; popped : list nat; executed : list nat }.

Definition upd (f : nat -> pc) (t : nat) (p : pc) : nat -> pc := fun i => if Nat.eqb i t then p else f i.
(** notify_all: every blocked thread goes on to lock the mutex again. tkrzw_thread_util.h:1520, 1524 *)
Definition wake_all (f : nat -> pc) : nat -> pc := fun i => match f i with WBlocked => WWake | p => p end.

Section Q.
Variable nw : nat.

(** One step of thread t. *)
Inductive step (t : nat) : sys -> sys -> Prop :=
(** worker: tkrzw_thread_util.h:1490-1505 *)
| w_run : forall Q m f a p e, f t = WLoop ->
    step t (mkSys Q true m f a p e) (mkSys Q true m (upd f t WLock) a p e)
| w_end : forall Q m f a p e, f t = WLoop ->
    step t (mkSys Q false m f a p e) (mkSys Q false m (upd f t WExit) a p e)
| w_lock : forall Q r f a p e, f t = WLock ->
    step t (mkSys Q r None f a p e) (mkSys Q r (Some t) (upd f t WCheck) a p e)
| w_pop : forall k Q r m f a p e, f t = WCheck ->
    step t (mkSys (k :: Q) r m f a p e) (mkSys Q r None (upd f t (WDo k)) a (p ++ [k]) e)
| w_empty : forall r m f a p e, f t = WCheck ->
    step t (mkSys [] r m f a p e) (mkSys [] r m (upd f t WPred) a p e)
| w_pred_true : forall Q r m f a p e, f t = WPred -> r = false \/ Q <> [] ->
    step t (mkSys Q r m f a p e) (mkSys Q r None (upd f t WLoop) a p e)
| w_pred_false : forall m f a p e, f t = WPred ->
    step t (mkSys [] true m f a p e) (mkSys [] true m (upd f t WSleep) a p e)
| w_block : forall Q r m f a p e, f t = WSleep ->
    step t (mkSys Q r m f a p e) (mkSys Q r None (upd f t WBlocked) a p e)
| w_relock : forall Q r f a p e, f t = WWake ->
    step t (mkSys Q r None f a p e) (mkSys Q r (Some t) (upd f t WPred) a p e)
| w_do : forall k Q r m f a p e, f t = WDo k ->
    step t (mkSys Q r m f a p e) (mkSys Q r m (upd f t WLoop) a p (e ++ [k]))
(** Add: tkrzw_thread_util.h:1532-1539 *)
| c_push : forall k Q r f a p e, f t = CPush k ->
    step t (mkSys Q r None f a p e) (mkSys (Q ++ [k]) r None (upd f t CNotify) (a ++ [k]) p e)
| c_notify_one : forall u Q r m f a p e, f t = CNotify -> f u = WBlocked ->
    step t (mkSys Q r m f a p e) (mkSys Q r m (upd (upd f u WWake) t CIdle) a p e)
| c_notify_none : forall Q r m f a p e, f t = CNotify -> (forall u, f u <> WBlocked) ->
    step t (mkSys Q r m f a p e) (mkSys Q r m (upd f t CIdle) a p e)
(** Stop: tkrzw_thread_util.h:1511-1530; the clock may have passed the end time or not at every test *)
| s_again : forall b Q r m f a p e, f t = SHead b ->
    step t (mkSys Q r m f a p e) (mkSys Q r m (upd f t (SCheck b)) a p e)
| s_timeout : forall b Q r m f a p e, f t = SHead b ->
    step t (mkSys Q r m f a p e) (mkSys Q r m (upd f t (SStore true b)) a p e)
| s_empty : forall b r f a p e, f t = SCheck b ->
    step t (mkSys [] r None f a p e) (mkSys [] r None (upd f t (SStore false b)) a p e)
| s_busy : forall b Q r f a p e, f t = SCheck b -> Q <> [] ->
    step t (mkSys Q r None f a p e) (mkSys Q r None (upd f t (SNotify b)) a p e)
| s_notify : forall b Q r m f a p e, f t = SNotify b ->
    step t (mkSys Q r m f a p e) (mkSys Q r m (upd (wake_all f) t (SHead b)) a p e)
| s_store : forall l b Q r m f a p e, f t = SStore l b ->
    step t (mkSys Q r m f a p e) (mkSys Q false m (upd f t (SNotifyAll l b)) a p e)
| s_notify_all : forall l b Q r m f a p e, f t = SNotifyAll l b ->
    step t (mkSys Q r m f a p e) (mkSys Q r m (upd (wake_all f) t (SJoin l b)) a p e)
| s_join : forall l b Q r m f a p e, f t = SJoin l b -> (forall u, u < nw -> f u = WExit) ->
    step t (mkSys Q r m f a p e) (mkSys Q r m (upd f t (SDone l b)) a p e).

(** Events that are not steps of a method in progress: calls and spurious wake-ups. *)
Inductive env : sys -> sys -> Prop :=
| e_add : forall t k Q r m f a p e, f t = CIdle -> env (mkSys Q r m f a p e) (mkSys Q r m (upd f t (CPush k)) a p e)
| e_stop : forall Q r m f a p e, f nw = CIdle -> env (mkSys Q r m f a p e) (mkSys Q r m (upd f nw (SHead a)) a p e)
| e_wake : forall t Q r m f a p e, f t = WBlocked -> env (mkSys Q r m f a p e) (mkSys Q r m (upd f t WWake) a p e).

(** State after Start(nw). tkrzw_thread_util.h:1484-1509 *)
Definition init : sys := mkSys [] true None (fun i => if Nat.ltb i nw then WLoop else CIdle) [] [] [].

(** All executions. *)
Inductive reach : sys -> Prop :=
| r_init : reach init
| r_step : forall t s s', reach s -> step t s s' -> reach s'
| r_env : forall s s', reach s -> env s s' -> reach s'.
End Q.

(** WaitCounter. tkrzw_thread_util.h:811-852, 1549-1583.
    Simplification: the counter is an unbounded integer. [DNotify]: inside Done, about to notify. *)
Inductive wpc :=
| XIdle
| DNotify                (** Done: the counter is exhausted, about to notify_all (1561) *)
| XLock                  (** Wait: about to lock the mutex (1574) *)
| XTest                  (** owns the mutex, about to load the counter (1575) *)
| XSleep                 (** owns the mutex, about to block (1576) *)
| XBlocked
| XWake (tmo : bool)     (** woken up or timed out, about to lock the mutex *)
| XLate                  (** owns the mutex after a timeout, about to load the counter (1577) *)
| XRet (r : bool).       (** Wait has returned r *)

Record wsys := mkW { wc : Z; wm : option nat; wpcs : nat -> wpc }.
Definition wupd (f : nat -> wpc) (t : nat) (p : wpc) : nat -> wpc := fun i => if Nat.eqb i t then p else f i.
Definition wwake (f : nat -> wpc) : nat -> wpc := fun i => match f i with XBlocked => XWake false | p => p end.

(** Steps: Done 1559-1563, Wait 1565-1583 of tkrzw_thread_util.h (the branch for timeout zero is [x_poll]). *)
Inductive wstep (t : nat) : wsys -> wsys -> Prop :=
| d_notify : forall c m f, f t = DNotify -> wstep t (mkW c m f) (mkW c m (wupd (wwake f) t XIdle))
| x_lock : forall c f, f t = XLock -> wstep t (mkW c None f) (mkW c (Some t) (wupd f t XTest))
| x_more : forall c m f, f t = XTest -> (0 < c)%Z -> wstep t (mkW c m f) (mkW c m (wupd f t XSleep))
| x_ok : forall c m f, f t = XTest -> (c <= 0)%Z -> wstep t (mkW c m f) (mkW c None (wupd f t (XRet true)))
| x_block : forall c m f, f t = XSleep -> wstep t (mkW c m f) (mkW c None (wupd f t XBlocked))
| x_relock : forall b c f, f t = XWake b -> wstep t (mkW c None f) (mkW c (Some t) (wupd f t (if b then XLate else XTest)))
| x_late : forall c m f, f t = XLate -> wstep t (mkW c m f) (mkW c None (wupd f t (XRet (c <=? 0)%Z))).
(** Calls, spurious wake-ups and timeouts. Add 1551-1553, Done 1559-1563, Wait 1565-1568 *)
Inductive wenv : wsys -> wsys -> Prop :=
| v_add : forall t i c m f, f t = XIdle -> wenv (mkW c m f) (mkW (c + i) m f)
| v_done : forall t d c m f, f t = XIdle ->
    wenv (mkW c m f) (mkW (c - d) m (wupd f t (if (c <=? d)%Z then DNotify else XIdle)))
| v_poll : forall t c m f, f t = XIdle -> wenv (mkW c m f) (mkW c m (wupd f t (XRet (c <=? 0)%Z)))
| v_wait : forall t c m f, f t = XIdle -> wenv (mkW c m f) (mkW c m (wupd f t XLock))
| v_wake : forall t c m f, f t = XBlocked -> wenv (mkW c m f) (mkW c m (wupd f t (XWake false)))
| v_timeout : forall t c m f, f t = XBlocked -> wenv (mkW c m f) (mkW c m (wupd f t (XWake true))).
Inductive wreach : wsys -> Prop :=
| wr_init : forall c, wreach (mkW c None (fun _ => XIdle))
| wr_step : forall t s s', wreach s -> wstep t s s' -> wreach s'
| wr_env : forall s s', wreach s -> wenv s s' -> wreach s'.
