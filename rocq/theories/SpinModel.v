(** Spin locks of tkrzw_thread_util.h as transition systems.

    Every atomic operation of the C++ code is one transition of one thread, so that all interleavings are executions of the system.
    Simplification: atomics are sequentially consistent (the code uses release stores in the unlocking methods and
    sequentially consistent read-modify-write operations elsewhere); thread yielding has no effect. *)
From Coq Require Import NArith List Lia Arith Bool.
Import ListNotations.
Local Open Scope N_scope.

(** INT32MAX: tkrzw_lib_common.h:86 *)
Definition MAX : N := 2147483647.
(** Range of std::atomic_uint32_t: tkrzw_thread_util.h:207, 335-337 *)
Definition W32 : N := 4294967296.
(** fetch_add(1) on a 32-bit unsigned atomic wraps around. tkrzw_thread_util.h:145, 160 *)
Definition inc32 (n : N) : N := if n + 1 =? W32 then 0 else n + 1.
(** fetch_sub(1). tkrzw_thread_util.h:175 *)
Definition dec32 (n : N) : N := if n =? 0 then W32 - 1 else n - 1.

(** The program points of a thread between two atomic operations. [Idle]: outside the mutex, owning nothing.
    tkrzw_thread_util.h:110-203 (SpinSharedMutex), 230-331 (SpinWPSharedMutex) *)
Inductive pc :=
| Idle
| HoldS                        (** owns the lock shared *)
| HoldX                        (** owns the lock exclusively *)
| LockWeak                     (** lock(): about to do compare_exchange_weak (line 112, 233) *)
| LockStrong                   (** lock(): about to do compare_exchange_strong (line 114, 235) *)
| LockDone                     (** SpinWPSharedMutex::lock(): about to decrement wannabe_count_ (line 241) *)
| ShStart (once : bool)        (** lock_shared() at the head of its loop (line 145, 267); try_lock_shared() if [once] (line 160, 282) *)
| ShAdd (once : bool)          (** about to do fetch_add (line 145, 160, 267, 285) *)
| ShLoad (once : bool)         (** about to load count_ (line 146, 163, 268, 288) *)
| ShCas (once : bool) (v : N)  (** about to do compare_exchange_weak of v (line 148, 165, 270, 290) *)
| Up (wait : bool)             (** try_upgrade(wait): about to do compare_exchange_strong (line 187, 313) *)
| UpCheck (wait : bool)        (** SpinWPSharedMutex::try_upgrade: about to load wannabe_count_ (line 317) *)
| UpDone                       (** about to decrement wannabe_count_ and return true (line 314) *)
| UpFail.                      (** about to decrement wannabe_count_ and return false (line 318) *)

(** count_ and wannabe_count_. tkrzw_thread_util.h:207, 335-337 *)
Record mem := mkMem { cnt : N; wan : N }.

(** Where the loop of lock_shared() or the straight code of try_lock_shared() continues after a failure. tkrzw_thread_util.h:150-151, 167, 272-273, 292 *)
Definition sh_end (once : bool) : pc := if once then Idle else ShStart once.

(** One atomic step of a thread; [wp] selects SpinWPSharedMutex (true) or SpinSharedMutex (false). A weak compare-exchange may fail spuriously. *)
Inductive tstep (wp : bool) : mem -> pc -> mem -> pc -> Prop :=
(** lock(): tkrzw_thread_util.h:110-120, 230-242 *)
| t_lock : forall c w, tstep wp (mkMem c w) Idle (mkMem c (if wp then inc32 w else w)) LockWeak
| t_weak_ok : forall w, tstep wp (mkMem 0 w) LockWeak (mkMem MAX w) (if wp then LockDone else HoldX)
| t_weak_fail : forall c w, tstep wp (mkMem c w) LockWeak (mkMem c w) LockStrong
| t_strong_ok : forall w, tstep wp (mkMem 0 w) LockStrong (mkMem MAX w) (if wp then LockDone else HoldX)
| t_strong_fail : forall c w, c <> 0 -> tstep wp (mkMem c w) LockStrong (mkMem c w) LockWeak
| t_lock_done : forall c w, tstep wp (mkMem c w) LockDone (mkMem c (dec32 w)) HoldX
(** try_lock(): tkrzw_thread_util.h:127-130, 249-252 *)
| t_try_ok : forall w, tstep wp (mkMem 0 w) Idle (mkMem MAX w) HoldX
| t_try_fail : forall c w, c <> 0 -> tstep wp (mkMem c w) Idle (mkMem c w) Idle
(** unlock(): tkrzw_thread_util.h:136-138, 258-260 *)
| t_unlock : forall c w, tstep wp (mkMem c w) HoldX (mkMem 0 w) Idle
(** lock_shared(), try_lock_shared(): tkrzw_thread_util.h:144-152, 159-168, 266-274, 281-293 *)
| t_sh : forall c w once, tstep wp (mkMem c w) Idle (mkMem c w) (ShStart once)
| t_sh_wan_free : forall c w once, wp = true -> w = 0 -> tstep wp (mkMem c w) (ShStart once) (mkMem c w) (ShAdd once)
| t_sh_wan_busy : forall c w once, wp = true -> w <> 0 ->
    tstep wp (mkMem c w) (ShStart once) (mkMem c w) (if once then Idle else ShLoad once)
| t_sh_nowan : forall c w once, wp = false -> tstep wp (mkMem c w) (ShStart once) (mkMem c w) (ShAdd once)
| t_sh_add_ok : forall c w once, c < MAX -> tstep wp (mkMem c w) (ShAdd once) (mkMem (inc32 c) w) HoldS
| t_sh_add_fail : forall c w once, MAX <= c -> tstep wp (mkMem c w) (ShAdd once) (mkMem (inc32 c) w) (ShLoad once)
| t_sh_load_big : forall c w once, MAX < c -> tstep wp (mkMem c w) (ShLoad once) (mkMem c w) (ShCas once c)
| t_sh_load_small : forall c w once, c <= MAX -> tstep wp (mkMem c w) (ShLoad once) (mkMem c w) (sh_end once)
| t_sh_cas_ok : forall v w once, tstep wp (mkMem v w) (ShCas once v) (mkMem MAX w) (sh_end once)
| t_sh_cas_fail : forall c w once v, tstep wp (mkMem c w) (ShCas once v) (mkMem c w) (sh_end once)
(** unlock_shared(): tkrzw_thread_util.h:174-176, 299-301 *)
| t_unlock_sh : forall c w, tstep wp (mkMem c w) HoldS (mkMem (dec32 c) w) Idle
(** try_upgrade(): tkrzw_thread_util.h:184-195, 309-323 *)
| t_up : forall c w wait, tstep wp (mkMem c w) HoldS (mkMem c (if wp then inc32 w else w)) (Up wait)
| t_up_ok : forall w wait, tstep wp (mkMem 1 w) (Up wait) (mkMem MAX w) (if wp then UpDone else HoldX)
| t_up_fail_plain : forall c w wait, wp = false -> c <> 1 -> tstep wp (mkMem c w) (Up wait) (mkMem c w) (if c <? MAX then HoldS else Up wait)
| t_up_fail_wp : forall c w wait, wp = true -> c <> 1 ->
    tstep wp (mkMem c w) (Up wait) (mkMem c w) (if negb wait then UpFail else if c <? MAX then UpCheck wait else Up wait)
| t_up_check : forall c w wait, tstep wp (mkMem c w) (UpCheck wait) (mkMem c w) (if 1 <? w then UpFail else Up wait)
| t_up_done : forall c w, tstep wp (mkMem c w) UpDone (mkMem c (dec32 w)) HoldX
| t_up_giveup : forall c w, tstep wp (mkMem c w) UpFail (mkMem c (dec32 w)) HoldS
(** downgrade(): tkrzw_thread_util.h:201-203, 329-331 *)
| t_downgrade : forall c w, tstep wp (mkMem c w) HoldX (mkMem 1 w) HoldS.

(** Whole system: the mutex and the program points of threads 0, 1, 2, ... *)
Record sys := mkSys { sm : mem; spc : nat -> pc }.

(** Change of one thread's program point. *)
Definition upd (f : nat -> pc) (t : nat) (p : pc) : nat -> pc := fun i => if Nat.eqb i t then p else f i.

(** A step of thread [t]. *)
Inductive step (wp : bool) (t : nat) : sys -> sys -> Prop :=
| s_step : forall m f m' p', tstep wp m (f t) m' p' -> step wp t (mkSys m f) (mkSys m' (upd f t p')).

(** Constructors: count_(0), wannabe_count_(0). tkrzw_thread_util.h:98, 218 *)
Definition init : sys := mkSys (mkMem 0 0) (fun _ => Idle).

(** States reachable with [nt] threads whose intermediate states all satisfy [ok]. *)
Inductive reach (wp : bool) (nt : nat) (ok : sys -> Prop) : sys -> Prop :=
| r_init : reach wp nt ok init
| r_step : forall s t s', reach wp nt ok s -> ok s -> (t < nt)%nat -> step wp t s s' -> reach wp nt ok s'.

(** Several steps of one thread alone. *)
Inductive solo (wp : bool) (t : nat) : nat -> sys -> sys -> Prop :=
| solo_0 : forall s, solo wp t 0 s s
| solo_S : forall n s s' s'', step wp t s s' -> solo wp t n s' s'' -> solo wp t (S n) s s''.

(** SpinMutex: an atomic flag. tkrzw_thread_util.h:45-88 *)
Inductive mpc := MIdle | MSpin | MHold.
(** lock() 62-66 (each turn of the loop is one test_and_set), try_lock() 73-75, unlock() 81-83 of tkrzw_thread_util.h *)
Inductive mtstep : bool -> mpc -> bool -> mpc -> Prop :=
| m_lock : forall b, mtstep b MIdle b MSpin
| m_tas : forall b, mtstep b MSpin true (if b then MSpin else MHold)
| m_try : forall b, mtstep b MIdle true (if b then MIdle else MHold)
| m_unlock : forall b, mtstep b MHold false MIdle.
(** Interleavings of any number of threads on one SpinMutex, starting unlocked. tkrzw_thread_util.h:45-88 *)
Inductive mreach : bool -> (nat -> mpc) -> Prop :=
| mr_init : mreach false (fun _ => MIdle)
| mr_step : forall b f t b' p', mreach b f -> mtstep b (f t) b' p' ->
    mreach b' (fun i => if Nat.eqb i t then p' else f i).
