(** TinyDBM called by several threads: its two levels of locks and every access to the shared memory, one transition at a
    time.  Source: /repo/tkrzw_dbm_tiny.cc and tkrzw_thread_util.h.

    A thread holds a lock as its program point says; a lock can be taken if no other thread holds it in a clashing mode (that
    SpinSharedMutex is such a lock is C31, that HashMutex gives the slots it is asked for is C32, HashMutexModel.v).  Deserialize
    with the comparison of the key and the call of the processor is one transition, as are Reserialize and ReserializeAppend,
    whose effects are on one record and on fresh memory.  Accesses that would race are told apart by [access], so that a race is
    visible although a transition is not divided.  The update logger, the iterators, the files and the reads of the timestamp are not modelled here. *)
From Coq Require Import List NArith ZArith Bool.
Import ListNotations.
From Verif Require Import Bytes CodecModel DbmModel StatusModel HashMutexModel TinyModel TinyProps.
Local Open Scope N_scope.

Section Conc.
  (** PrimaryHash and GetHashBucketSize. *)
  Variable hash : bytes -> N -> N.
  Variable bucket_size : N -> N.
  (** RECORD_MUTEX_NUM_SLOTS, tkrzw_dbm_tiny.cc:30. *)
  Variable ns : N.
  (** The state of the processors of one call. *)
  Variable S : Type.

  (** What a call does with one key: ProcessImpl or AppendImpl. *)
  Inductive item := IProc (p : proc S) | IApp (cat delim : bytes).
  (** Process, Append and ProcessMulti: the keys in order, whether the record locks are exclusive, and the state the processors
      start with.  tkrzw_dbm_tiny.cc:279-312 *)
  Record icall := mkCall { ic_l : list (bytes * item); ic_w : bool; ic_s : S }.
  Definition c_process (k : bytes) (p : proc S) (w : bool) (s : S) : icall := mkCall [(k, IProc p)] w s.
  Definition c_append (k v d : bytes) (s : S) : icall := mkCall [(k, IApp v d)] true s.
  Definition c_multi (l : list (bytes * proc S)) (w : bool) (s : S) : icall := mkCall (map (fun x => (fst x, IProc (snd x))) l) w s.
  Inductive ccall :=
  | CItems (c : icall)
  (** Calls under the exclusive lock of mutex_: ProcessFirst and ProcessEach as writer, Clear, Rebuild.  tkrzw_dbm_tiny.cc:314-326,
      345-357, 411-447 *)
  | CExcl (o : op S) (s : S)
  (** Count, tkrzw_dbm_tiny.cc:378-382. *)
  | CCount
  (** ProcessFirst and ProcessEach as reader, tkrzw_dbm_tiny.cc:327-341, 359-374. *)
  | CFirst (p : proc S) (s : S)
  | CEach (p : proc S) (s : S).
  (** What a caller gets: the state of its processors (what they have been shown), or a number. *)
  Inductive result := RS (s : S) | RN (z : Z).

  (** Program points. *)
  Inductive pc :=
  | PIdle
  | PMain (c : ccall)                                        (** about to lock mutex_ *)
  | PSlots (c : icall) (got todo : list N)                   (** in the loop over the record locks, tkrzw_thread_util.h:1330-1336 *)
  | PTop (c : icall) (r : list (bytes * item)) (s : S)       (** the records of [r] are left; about to read buckets_[bucket_index] *)
  | PWalk (c : icall) (k : bytes) (it : item) (r : list (bytes * item)) (s : S) (top parent p : option ptr)  (** "while (ptr != nullptr)" *)
  | PFree (c : icall) (k : bytes) (r : list (bytes * item)) (s : S) (q : ptr) (parent child : option ptr)    (** about to xfree *)
  | PRes (c : icall) (k : bytes) (r : list (bytes * item)) (s : S) (q : ptr) (parent child : option ptr) (old value : bytes)  (** Reserialize *)
  | PApp (c : icall) (k : bytes) (r : list (bytes * item)) (s : S) (q : ptr) (parent child : option ptr) (old cat delim : bytes)
  | PNew (c : icall) (k : bytes) (r : list (bytes * item)) (s : S) (top : option ptr) (value : bytes)        (** Serialize *)
  | PLink (c : icall) (k : bytes) (r : list (bytes * item)) (s : S) (parent np : option ptr) (d : Z)         (** about to write buckets_[bucket_index] or *parent *)
  | PNum (c : icall) (r : list (bytes * item)) (s : S) (d : Z)    (** num_records_.fetch_add or fetch_sub *)
  | PUn (c : icall) (s : S) (todo : list N)                  (** about to unlock the head of [todo], then mutex_ *)
  | PExcl (o : op S) (s : S)                                 (** mutex_ is held exclusively *)
  | PCount
  | PFirst (p : proc S) (s : S) (i : N)                      (** about to read buckets_[i] *)
  | PFirstAt (p : proc S) (s : S) (q : ptr)
  | PEach (p : proc S) (s : S) (i : N)
  | PEachAt (p : proc S) (s : S) (i : N) (o : option ptr)
  | PRet (r : result).                                       (** all locks are released *)

  Inductive act_result := Wait | UB | Big | Next (m : tiny) (p : pc).
  (** The slots of the keys, ascending, each once.  tkrzw_thread_util.h:1322-1328 *)
  Definition cslots (nb : N) (c : icall) : list N := slotset (map (fun x => hash (fst x) nb mod ns) (ic_l c)).
  Definition set_h (m : tiny) (h : heap) : tiny := mkTiny h (t_b m) (t_nb m) (t_num m).

  (** One transition on the memory, or one unlocking.  [UB] is the use of a null or freed pointer or an access outside a block;
      [Big] is a record of 2^31 bytes or more, which overflows int32_t.  [moved]: realloc moves the block.
      ProcessImpl 628-682, AppendImpl 684-724, Count 378-382, ProcessFirst 327-341, ProcessEach 359-374 of tkrzw_dbm_tiny.cc. *)
  Definition tact (moved : bool) (m : tiny) (p : pc) : act_result :=
    match p with
    | PIdle | PMain _ | PRet _ | PSlots _ _ (_ :: _) => Wait
    | PSlots c _ [] => Next m (PTop c (ic_l c) (ic_s c))
    | PTop c [] s => Next m (PUn c s (rev (cslots (t_nb m) c)))
    | PTop c ((k, it) :: r) s => let top := t_b m (hash k (t_nb m)) in Next m (PWalk c k it r s top None top)
    | PWalk c k it r s top parent None =>
        match it with
        | IProc p =>
            let '(a, s') := on_empty p k s in
            match (if ic_w c then a else ANoop) with ASet v => Next m (PNew c k r s' top v) | _ => Next m (PTop c r s') end
        | IApp cat _ => Next m (PNew c k r s top cat)
        end
    | PWalk c k it r s top parent (Some q) =>
        match tr_deserialize (t_h m) q with
        | None => UB
        | Some (child, k', v) =>
            if beqb k k' then
              match it with
              | IProc p =>
                  let '(a, s') := on_full p k v s in
                  match (if ic_w c then a else ANoop) with
                  | ANoop => Next m (PTop c r s')
                  | ARemove => Next m (PFree c k r s' q parent child)
                  | ASet v' => Next m (PRes c k r s' q parent child v v')
                  end
              | IApp cat delim => Next m (PApp c k r s q parent child v cat delim)
              end
            else Next m (PWalk c k it r s top (Some q) child)
        end
    | PFree c k r s q parent child =>
        match h_free (t_h m) q with None => UB | Some h => Next (set_h m h) (PLink c k r s parent child (-1)) end
    | PRes c k r s q parent child old value =>
        if fits (blen k) (blen value) then
          match tr_reserialize (t_h m) q child k value (blen old) moved with
          | None => UB
          | Some (h, q') => Next (set_h m h) (if Nat.eqb q' q then PTop c r s else PLink c k r s parent (Some q') 0)
          end
        else Big
    | PApp c k r s q parent child old cat delim =>
        if fits (blen k) (blen (old ++ delim ++ cat)) then
          match tr_append (t_h m) q child k old cat delim moved with
          | None => UB
          | Some (h, q') => Next (set_h m h) (if Nat.eqb q' q then PTop c r s else PLink c k r s parent (Some q') 0)
          end
        else Big
    | PNew c k r s top value =>
        if fits (blen k) (blen value) then
          match tr_serialize (t_h m) top k value with
          | None => UB
          | Some (h, q') => Next (set_h m h) (PLink c k r s None (Some q') 1)
          end
        else Big
    | PLink c k r s parent np d =>
        match relink (t_h m) (t_b m) (hash k (t_nb m)) parent np with
        | None => UB
        | Some (h, b) => Next (mkTiny h b (t_nb m) (t_num m)) (if (d =? 0)%Z then PTop c r s else PNum c r s d)
        end
    | PNum c r s d => Next (mkTiny (t_h m) (t_b m) (t_nb m) (t_num m + d)) (PTop c r s)
    | PUn c s (_ :: l) => Next m (PUn c s l)
    | PUn c s [] => Next m (PRet (RS s))
    | PExcl o s => match t_call hash bucket_size m s (o, moved) with None => UB | Some (m', s') => Next m' (PRet (RS s')) end
    | PCount => Next m (PRet (RN (t_num m)))
    | PFirst p s i => if i <? t_nb m then match t_b m i with None => Next m (PFirst p s (i + 1)) | Some q => Next m (PFirstAt p s q) end
                      else Next m (PRet (RS s))
    | PFirstAt p s q => match tr_deserialize (t_h m) q with None => UB | Some (_, k, v) => Next m (PRet (RS (snd (on_full p k v s)))) end
    | PEach p s i => if i <? t_nb m then Next m (PEachAt p s i (t_b m i)) else Next m (PRet (RS s))
    | PEachAt p s i None => Next m (PEach p s (i + 1))
    | PEachAt p s i (Some q) =>
        match tr_deserialize (t_h m) q with None => UB | Some (c, k, v) => Next m (PEachAt p (snd (on_full p k v s)) i c) end
    end.

  (** The mode in which mutex_ is held. *)
  Definition main_of (p : pc) : option mode :=
    match p with
    | PIdle | PMain _ | PRet _ => None
    | PExcl _ _ => Some MX
    | _ => Some MS
    end.
  (** The record locks held and their mode, tkrzw_dbm_tiny.cc:281, 289, 304. *)
  Definition slots_of (nb : N) (p : pc) : list N :=
    match p with
    | PSlots _ got _ => got
    | PTop c _ _ | PWalk c _ _ _ _ _ _ _ | PFree c _ _ _ _ _ _ | PRes c _ _ _ _ _ _ _ _ | PApp c _ _ _ _ _ _ _ _ _
    | PNew c _ _ _ _ _ | PLink c _ _ _ _ _ _ | PNum c _ _ _ => cslots nb c
    | PUn _ _ todo => todo
    | _ => []
    end.
  Definition mode_of (p : pc) : mode :=
    match p with
    | PSlots c _ _ | PTop c _ _ | PWalk c _ _ _ _ _ _ _ | PFree c _ _ _ _ _ _ | PRes c _ _ _ _ _ _ _ _ | PApp c _ _ _ _ _ _ _ _ _
    | PNew c _ _ _ _ _ | PLink c _ _ _ _ _ _ | PNum c _ _ _ | PUn c _ _ => if ic_w c then MX else MS
    | _ => MS
    end.
  Definition clash (a b : mode) : Prop := a = MX \/ b = MX.

  (** Places in memory that are not accessed atomically: an element of buckets_ and a record. *)
  Inductive place := LB (i : N) | LC (q : ptr).
  (** What the next transition accesses; [true]: it may write there. *)
  Inductive access (m : tiny) : pc -> place -> bool -> Prop :=
  | A_top c k it r s : access m (PTop c ((k, it) :: r) s) (LB (hash k (t_nb m))) false
  | A_walk c k it r s top parent q : access m (PWalk c k it r s top parent (Some q)) (LC q) false
  | A_free c k r s q parent child : access m (PFree c k r s q parent child) (LC q) true
  | A_res c k r s q parent child old v : access m (PRes c k r s q parent child old v) (LC q) true
  | A_app c k r s q parent child old v d : access m (PApp c k r s q parent child old v d) (LC q) true
  | A_linkb c k r s np d : access m (PLink c k r s None np d) (LB (hash k (t_nb m))) true
  | A_linkc c k r s q np d : access m (PLink c k r s (Some q) np d) (LC q) true
  | A_excl o s l : access m (PExcl o s) l true
  | A_first p s i : access m (PFirst p s i) (LB i) false
  | A_firstat p s q : access m (PFirstAt p s q) (LC q) false
  | A_each p s i : access m (PEach p s i) (LB i) false
  | A_eachat p s i q : access m (PEachAt p s i (Some q)) (LC q) false.

  (** * The whole system *)
  Record sys := mkSys { y_m : tiny; y_pc : nat -> pc }.
  Definition upd (f : nat -> pc) (t : nat) (p : pc) : nat -> pc := fun u => if Nat.eqb u t then p else f u.
  Inductive ev := ECall (t : nat) (c : ccall) | ERet (t : nat) (r : result) | ETau.
  Definition free_main (y : sys) (t : nat) (md : mode) : Prop := forall u b, u <> t -> main_of (y_pc y u) = Some b -> ~ clash md b.
  Definition free_slot (y : sys) (t : nat) (md : mode) (j : N) : Prop :=
    forall u, u <> t -> In j (slots_of (t_nb (y_m y)) (y_pc y u)) -> ~ clash md (mode_of (y_pc y u)).
  (** Append locks its record exclusively (289); the processors of a call under the exclusive lock make no record too large. *)
  Definition wf_call (c : ccall) : Prop :=
    match c with
    | CItems c => ic_w c = true \/ (forall k it, In (k, it) (ic_l c) -> exists p, it = IProc p)
    | CExcl o s => forall m, (forall k v, m k = Some v -> fits (blen k) (blen v) = true) -> small m s o
    | _ => True
    end.
  (** The threads are 0 .. n-1. *)
  Variable n : nat.
  Definition mstart (c : ccall) : mode := match c with CExcl _ _ => MX | _ => MS end.
  Definition start (nb : N) (c : ccall) : pc :=
    match c with
    | CItems c => PSlots c [] (cslots nb c)
    | CExcl o s => PExcl o s
    | CCount => PCount
    | CFirst p s => PFirst p s 0
    | CEach p s => PEach p s 0
    end.
  Inductive step (y : sys) : ev -> sys -> Prop :=
  | st_call t c : (t < n)%nat -> y_pc y t = PIdle -> wf_call c -> step y (ECall t c) (mkSys (y_m y) (upd (y_pc y) t (PMain c)))
  | st_main t c : y_pc y t = PMain c -> free_main y t (mstart c) -> step y ETau (mkSys (y_m y) (upd (y_pc y) t (start (t_nb (y_m y)) c)))
  | st_slot t c got j todo : y_pc y t = PSlots c got (j :: todo) -> free_slot y t (if ic_w c then MX else MS) j ->
      step y ETau (mkSys (y_m y) (upd (y_pc y) t (PSlots c (got ++ [j]) todo)))
  | st_act t moved m' p' : tact moved (y_m y) (y_pc y t) = Next m' p' -> step y ETau (mkSys m' (upd (y_pc y) t p'))
  | st_ret t r : y_pc y t = PRet r -> step y (ERet t r) (mkSys (y_m y) (upd (y_pc y) t PIdle)).
  Inductive run : sys -> list ev -> sys -> Prop :=
  | run_nil y : run y [] y
  | run_tau y y1 tr y2 : run y tr y1 -> step y1 ETau y2 -> run y tr y2
  | run_ev y y1 tr e y2 : run y tr y1 -> e <> ETau -> step y1 e y2 -> run y (tr ++ [e]) y2.
  Definition init (nb : N) : sys := mkSys (t_new bucket_size nb) (fun _ => PIdle).
End Conc.
Arguments IProc {S}. Arguments IApp {S}. Arguments mkCall {S}. Arguments ic_l {S}. Arguments ic_w {S}. Arguments ic_s {S}.
Arguments CItems {S}. Arguments CExcl {S}. Arguments CCount {S}. Arguments CFirst {S}. Arguments CEach {S}. Arguments RS {S}. Arguments RN {S}.
Arguments PIdle {S}. Arguments PMain {S}. Arguments PSlots {S}. Arguments PTop {S}. Arguments PWalk {S}. Arguments PFree {S}. Arguments PRes {S}.
Arguments PApp {S}. Arguments PNew {S}. Arguments PLink {S}. Arguments PNum {S}. Arguments PUn {S}. Arguments PExcl {S}. Arguments PCount {S}.
Arguments PFirst {S}. Arguments PFirstAt {S}. Arguments PEach {S}. Arguments PEachAt {S}. Arguments PRet {S}.
Arguments Wait {S}. Arguments UB {S}. Arguments Big {S}. Arguments Next {S}. Arguments ECall {S}. Arguments ERet {S}. Arguments ETau {S}.
Arguments mkSys {S}. Arguments y_m {S}. Arguments y_pc {S}. Arguments upd {S}. Arguments main_of {S}. Arguments mode_of {S}.
Arguments slots_of hash ns {S}. Arguments cslots hash ns {S}. Arguments tact hash bucket_size ns {S}. Arguments access hash {S}. Arguments step hash bucket_size ns {S}.
Arguments run hash bucket_size ns {S}. Arguments start hash ns {S}. Arguments wf_call {S}. Arguments mstart {S}. Arguments free_main {S}. Arguments free_slot hash ns {S}.
Arguments c_process {S}. Arguments c_append {S}. Arguments c_multi {S}.
