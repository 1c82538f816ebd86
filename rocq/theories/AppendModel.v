(** Append and Synchronize of MemoryMapParallelFile and PositionalParallelFile as transition systems.

    Simplifications: PositionalParallelFile is modelled without head buffer, page cache and block size (its defaults);
    data are written byte by byte (any chunking of pwrite or memcpy is a special case of the interleavings);
    the new size chosen by AllocateSpace is any size not smaller than the requested one, which covers all allocation
    strategies; failures of mremap are left out. *)
From Coq Require Import NArith List Lia Bool Arith.
From Verif Require Import Bytes.
Import ListNotations.
Local Open Scope N_scope.

(** Map: MemoryMapParallelFile; Pos: PositionalParallelFile *)
Inductive kind := Map | Pos.

(** Program points. Append: tkrzw_file_mmap.cc:469-482 with the constructor of Zone 543-606; tkrzw_file_pos.cc:320-346.
    AllocateSpace: tkrzw_file_mmap.cc:380-407, tkrzw_file_pos.cc:534-558.
    Synchronize: tkrzw_file_mmap.cc:283-320, tkrzw_file_pos.cc:389-422. *)
Inductive pc :=
| Idle
| ALoad (d : bytes)                    (** about to load file_size_ *)
| AChk (d : bytes) (p : N)             (** AllocateSpace: about to compare with the allocated size *)
| ALock (d : bytes) (p : N)            (** AllocateSpace: about to lock the mutex *)
| AIn (d : bytes) (p : N)              (** AllocateSpace: owns the mutex, about to compare again *)
| ATrunc (d : bytes) (p n : N)         (** AllocateSpace: about to set the file's length to n *)
| AStore (d : bytes) (p n : N)         (** AllocateSpace: about to remap and store the allocated size n *)
| ACas (d : bytes) (p : N)             (** about to compare-exchange file_size_ *)
| ASh (d : bytes) (p : N)              (** Zone: about to lock the mutex shared *)
| ACopy (d : bytes) (p : N) (i : nat)  (** i bytes have been copied *)
| SLock                                (** Synchronize (memory map): about to lock *)
| SMap                                 (** Synchronize (memory map): owns the mutex, about to remap to the file size *)
| SCut                                 (** Synchronize (memory map): about to set the file's length *)
| SLoad                                (** Synchronize (positional): about to load file_size_ *)
| SStore (v : N)                       (** Synchronize (positional): about to store the allocated size *)
| STrunc.                              (** Synchronize (positional): about to set the file's length to the allocated size *)

(** file_size_; map_size_ or trunc_size_; length and bytes of the file (zero beyond); mutex_; whether memory outside the
    mapping was accessed; ghosts: regions reserved by a successful compare-exchange (newest first), regions returned.
    tkrzw_file_mmap.cc:77-87, tkrzw_file_pos.cc:93-106 *)
Record sys := mkSys { fsize : N; asize : N; plen : N; dat : N -> N; excl : bool; shared : nat; ub : bool;
                      pcs : nat -> pc; resv : list (N * bytes); rets : list (N * bytes) }.

Definition upd (f : nat -> pc) (t : nat) (p : pc) : nat -> pc := fun i => if Nat.eqb i t then p else f i.
Definition updb (f : N -> N) (a v : N) : N -> N := fun i => if i =? a then v else f i.
(** ftruncate: bytes beyond the new length are lost, new bytes are zero. tkrzw_sys_util_posix.h:90-97 *)
Definition cut (f : N -> N) (n : N) : N -> N := fun i => if i <? n then f i else 0.

Section A.
Variable k : kind.
(** Whether Synchronize may be called concurrently. *)
Variable sync : bool.

(** One step of thread t. *)
Inductive step (t : nat) : sys -> sys -> Prop :=
(** Append *)
| a_call : forall d fs as_ pl da x sh u f rv rt, f t = Idle ->
    step t (mkSys fs as_ pl da x sh u f rv rt) (mkSys fs as_ pl da x sh u (upd f t (ALoad d)) rv rt)
| a_load : forall d fs as_ pl da x sh u f rv rt, f t = ALoad d ->
    step t (mkSys fs as_ pl da x sh u f rv rt) (mkSys fs as_ pl da x sh u (upd f t (AChk d fs)) rv rt)
| a_chk : forall d p fs as_ pl da x sh u f rv rt, f t = AChk d p ->
    step t (mkSys fs as_ pl da x sh u f rv rt)
           (mkSys fs as_ pl da x sh u (upd f t (if p + blen d <=? as_ then ACas d p else ALock d p)) rv rt)
| a_lock : forall d p fs as_ pl da u f rv rt, f t = ALock d p ->
    step t (mkSys fs as_ pl da false 0 u f rv rt) (mkSys fs as_ pl da true 0 u (upd f t (AIn d p)) rv rt)
| a_enough : forall d p fs as_ pl da x sh u f rv rt, f t = AIn d p -> p + blen d <= as_ ->
    step t (mkSys fs as_ pl da x sh u f rv rt) (mkSys fs as_ pl da false sh u (upd f t (ACas d p)) rv rt)
| a_grow : forall d p n fs as_ pl da x sh u f rv rt, f t = AIn d p -> as_ < p + blen d -> p + blen d <= n ->
    step t (mkSys fs as_ pl da x sh u f rv rt) (mkSys fs as_ pl da x sh u (upd f t (ATrunc d p n)) rv rt)
| a_nogrow : forall d p fs as_ pl da x sh u f rv rt, k = Pos -> f t = AIn d p -> as_ < p + blen d ->
    (** tkrzw_file_pos.cc:542-545 *)
    step t (mkSys fs as_ pl da x sh u f rv rt) (mkSys fs (p + blen d) pl da false sh u (upd f t (ACas d p)) rv rt)
| a_trunc : forall d p n fs as_ pl da x sh u f rv rt, f t = ATrunc d p n ->
    step t (mkSys fs as_ pl da x sh u f rv rt) (mkSys fs as_ n (cut da n) x sh u (upd f t (AStore d p n)) rv rt)
| a_trunc_fail : forall d p n fs as_ pl da x sh u f rv rt, f t = ATrunc d p n ->
    step t (mkSys fs as_ pl da x sh u f rv rt) (mkSys fs as_ pl da false sh u (upd f t Idle) rv rt)
| a_store : forall d p n fs as_ pl da x sh u f rv rt, f t = AStore d p n ->
    step t (mkSys fs as_ pl da x sh u f rv rt) (mkSys fs n pl da false sh u (upd f t (ACas d p)) rv rt)
| a_cas_ok : forall d p as_ pl da x sh u f rv rt, f t = ACas d p ->
    step t (mkSys p as_ pl da x sh u f rv rt)
           (mkSys (p + blen d) as_ pl da x sh u (upd f t (match k with Map => ASh d p | Pos => ACopy d p 0 end)) ((p, d) :: rv) rt)
| a_cas_fail : forall d p fs as_ pl da x sh u f rv rt, f t = ACas d p ->
    step t (mkSys fs as_ pl da x sh u f rv rt) (mkSys fs as_ pl da x sh u (upd f t (ALoad d)) rv rt)
| a_shared : forall d p fs as_ pl da sh u f rv rt, f t = ASh d p ->
    step t (mkSys fs as_ pl da false sh u f rv rt) (mkSys fs as_ pl da false (S sh) u (upd f t (ACopy d p 0)) rv rt)
| a_copy : forall d p i b fs as_ pl da x sh u f rv rt, f t = ACopy d p i -> nth_error d i = Some b ->
    step t (mkSys fs as_ pl da x sh u f rv rt)
           (mkSys fs as_ (match k with Map => pl | Pos => N.max pl (p + N.of_nat i + 1) end)
                  (updb da (p + N.of_nat i) b) x sh
                  (match k with Map => u || (as_ <=? p + N.of_nat i) | Pos => u end)
                  (upd f t (ACopy d p (S i))) rv rt)
| a_ret : forall d p i fs as_ pl da x sh u f rv rt, f t = ACopy d p i -> length d = i ->
    step t (mkSys fs as_ pl da x sh u f rv rt)
           (mkSys fs as_ pl da x (match k with Map => pred sh | Pos => sh end) u (upd f t Idle) rv ((p, d) :: rt))
(** Synchronize of the memory-mapped file *)
| s_call_map : forall fs as_ pl da x sh u f rv rt, sync = true -> k = Map -> f t = Idle ->
    step t (mkSys fs as_ pl da x sh u f rv rt) (mkSys fs as_ pl da x sh u (upd f t SLock) rv rt)
| s_lock : forall fs as_ pl da u f rv rt, f t = SLock ->
    step t (mkSys fs as_ pl da false 0 u f rv rt) (mkSys fs as_ pl da true 0 u (upd f t SMap) rv rt)
| s_map : forall fs as_ pl da x sh u f rv rt, f t = SMap ->
    step t (mkSys fs as_ pl da x sh u f rv rt) (mkSys fs fs pl da x sh u (upd f t SCut) rv rt)
| s_cut : forall fs as_ pl da x sh u f rv rt, f t = SCut ->
    step t (mkSys fs as_ pl da x sh u f rv rt) (mkSys fs as_ fs (cut da fs) false sh u (upd f t Idle) rv rt)
(** Synchronize of the positional file *)
| s_call_pos : forall fs as_ pl da x sh u f rv rt, sync = true -> k = Pos -> f t = Idle ->
    step t (mkSys fs as_ pl da x sh u f rv rt) (mkSys fs as_ pl da x sh u (upd f t SLoad) rv rt)
| s_load : forall fs as_ pl da x sh u f rv rt, f t = SLoad ->
    step t (mkSys fs as_ pl da x sh u f rv rt) (mkSys fs as_ pl da x sh u (upd f t (SStore fs)) rv rt)
| s_store : forall v fs as_ pl da x sh u f rv rt, f t = SStore v ->
    step t (mkSys fs as_ pl da x sh u f rv rt) (mkSys fs v pl da x sh u (upd f t STrunc) rv rt)
| s_trunc : forall fs as_ pl da x sh u f rv rt, f t = STrunc ->
    step t (mkSys fs as_ pl da x sh u f rv rt) (mkSys fs as_ as_ (cut da as_) x sh u (upd f t Idle) rv rt).

(** States reached by nt threads from a file just opened for writing with fs bytes of contents da; the allocated size is the
    length of the file and not smaller than fs.
    tkrzw_file_mmap.cc:152-186, tkrzw_file_pos.cc:182-205 *)
Inductive reach (nt : nat) (fs : N) (da : N -> N) : sys -> Prop :=
| r_init : forall as_, fs <= as_ ->
    reach nt fs da (mkSys fs as_ as_ da false 0 false (fun _ => Idle) [] [])
| r_step : forall t s s', reach nt fs da s -> (t < nt)%nat -> step t s s' -> reach nt fs da s'.
End A.
