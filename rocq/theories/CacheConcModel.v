(** CacheDBM called by several threads: its two levels of locks, one transition at a time.  Source: /repo/tkrzw_dbm_cache.cc.

    A thread holds a lock as its program point says; a lock can be taken if no other thread holds it in a clashing mode (for
    SpinSharedMutex that is C31).  All memory of a slot is reached from that slot only, so what is done to one slot under its lock is
    one transition, a function of CacheModel.v.  Reading num_records_ without the lock (tkrzw_dbm_cache.cc:451) is a transition of
    its own.  The update logger, the iterators, the files and the timestamp are not modelled here. *)
From Coq Require Import List NArith ZArith Bool.
Import ListNotations.
From Verif Require Import Bytes CodecModel DbmModel LinkedModel HashMutexModel CacheModel.
Local Open Scope N_scope.

Section Conc.
  (** PrimaryHash(key, UINT64MAX) and the number of buckets, as in CacheModel.v. *)
  Variable hash : bytes -> N.
  Variable buckets : N -> N.
  (** The state of the processors of one call. *)
  Variable S : Type.

  (** The local variables of a call: the state of its processors, a sum, the keys it has copied, whether a record was found. *)
  Record loc := mkLoc { x_s : S; x_n : Z; x_keys : list bytes; x_hit : bool }.

  (** What is done to one slot while its mutex_ is held. *)
  Inductive act :=
  | AProc (k : bytes) (p : proc S) (w mv : bool)   (** ProcessImpl, tkrzw_dbm_cache.cc:303-412 *)
  | ALook                                          (** the key of the first record, tkrzw_dbm_cache.cc:418-427 *)
  | AFirst (p : proc S)                            (** ProcessFirst as reader, tkrzw_dbm_cache.cc:434-443 *)
  | AKeys                                          (** the keys of all records, tkrzw_dbm_cache.cc:452-461 *)
  | AEach (p : proc S)                             (** ProcessEach as reader, tkrzw_dbm_cache.cc:467-476 *)
  | ACount                                         (** Count, tkrzw_dbm_cache.cc:480-483, added up at 731 *)
  | AEff.                                          (** GetEffectiveDataSize, tkrzw_dbm_cache.cc:485-488, added up at 872 *)
  Definition exec_act (a : act) (s : slot) (x : loc) : option (slot * loc) :=
    match a with
    | AProc k p w mv => r <- slot_process hash s k p w mv (x_s x) ;; Some (fst r, mkLoc (snd r) (x_n x) (x_keys x) true)
    | ALook => match mfirst (cs_m s) with
               | None => Some (s, mkLoc (x_s x) (x_n x) [] (x_hit x))
               | Some f => kv <- get_kv (cs_h s) f ;; Some (s, mkLoc (x_s x) (x_n x) [fst kv] (x_hit x))
               end
    | AFirst p => match mfirst (cs_m s) with
                  | None => Some (s, mkLoc (x_s x) (x_n x) (x_keys x) false)
                  | Some f => kv <- get_kv (cs_h s) f ;; Some (s, mkLoc (snd (on_full p (fst kv) (snd kv) (x_s x))) (x_n x) (x_keys x) true)
                  end
    | AKeys => l <- slot_items s ;; Some (s, mkLoc (x_s x) (x_n x) (map fst l) (x_hit x))
    | AEach p => l <- slot_items s ;; Some (s, mkLoc (fold_left (fun st kv => snd (on_full p (fst kv) (snd kv) st)) l (x_s x)) (x_n x) (x_keys x) (x_hit x))
    | ACount => Some (s, mkLoc (x_s x) (x_n x + Z.of_N (mnum (cs_m s)))%Z (x_keys x) (x_hit x))
    | AEff => Some (s, mkLoc (x_s x) (x_n x + cs_eff s)%Z (x_keys x) (x_hit x))
    end.

  (** What a call does while it holds the lock of the object in shared mode: sections, each with the locks of its slots; local
      computations; and reads without a lock. *)
  Inductive prog :=
  | Ret
  | Sec (l : list (N * act)) (k : loc -> prog)
  | Local (f : loc -> loc) (k : prog)
  | Peek (i : N) (k : prog).

  Inductive ccall :=
  | KProcess (k : bytes) (p : proc S) (w mv : bool) (s : S)
  | KMulti (l : list (bytes * proc S)) (w : bool) (mv : bytes -> bool) (s : S)
  | KFirst (p : proc S) (w mv : bool) (s : S)
  | KEach (p : proc S) (w : bool) (mv : bytes -> bool) (noop : bytes) (s : S)
  | KCount (s : S)
  | KEff (s : S)
  | KClear (s : S)
  | KRebuild (cap : N) (mcap : Z) (s : S).

  (** ProcessFirst, tkrzw_dbm_cache.cc:414-446 and 707-715: [n] slots from [i] on. *)
  Fixpoint first_from (n : nat) (i : N) (p : proc S) (w mv : bool) : prog :=
    match n with
    | O => Ret
    | Datatypes.S n' =>
        if w then Sec [(i, ALook)] (fun x => match x_keys x with
                                             | k :: _ => Sec [(i, AProc k p true mv)] (fun _ => Ret)
                                             | [] => first_from n' (i + 1) p w mv
                                             end)
        else Sec [(i, AFirst p)] (fun x => if x_hit x then Ret else first_from n' (i + 1) p w mv)
    end.
  (** ProcessEach, tkrzw_dbm_cache.cc:448-478 and 717-725. *)
  Fixpoint each_keys (i : N) (keys : list bytes) (p : proc S) (mv : bytes -> bool) (rest : prog) : prog :=
    match keys with [] => rest | k :: ks => Sec [(i, AProc k p true (mv k))] (fun _ => each_keys i ks p mv rest) end.
  Fixpoint each_from (n : nat) (i : N) (p : proc S) (w : bool) (mv : bytes -> bool) (rest : prog) : prog :=
    match n with
    | O => rest
    | Datatypes.S n' =>
        if w then Peek i (Sec [(i, AKeys)] (fun x => each_keys i (x_keys x) p mv (each_from n' (i + 1) p w mv rest)))
        else Sec [(i, AEach p)] (fun _ => each_from n' (i + 1) p w mv rest)
    end.
  Definition call_empty (p : proc S) (noop : bytes) (x : loc) : loc := mkLoc (snd (on_empty p noop (x_s x))) (x_n x) (x_keys x) (x_hit x).
  (** Count and GetEffectiveDataSize, tkrzw_dbm_cache.cc:727-734 and 868-875. *)
  Fixpoint sum_prog (a : act) (n : nat) (i : N) : prog :=
    match n with O => Ret | Datatypes.S n' => Sec [(i, a)] (fun _ => sum_prog a n' (i + 1)) end.
  Definition slots32 : nat := N.to_nat NUM_CACHE_SLOTS.
  (** Process 672-679, ProcessMulti 681-705. *)
  Definition prog_of (c : ccall) : prog :=
    match c with
    | KProcess k p w mv _ => Sec [(slot_of hash k, AProc k p w mv)] (fun _ => Ret)
    | KMulti l w mv _ => Sec (map (fun kp => (slot_of hash (fst kp), AProc (fst kp) (snd kp) w (mv (fst kp)))) l) (fun _ => Ret)
    | KFirst p w mv _ => first_from slots32 0 p w mv
    | KEach p w mv noop _ => Local (call_empty p noop) (each_from slots32 0 p w mv (Local (call_empty p noop) Ret))
    | KCount _ => sum_prog ACount slots32 0
    | KEff _ => sum_prog AEff slots32 0
    | KClear _ | KRebuild _ _ _ => Ret
    end.
  Definition loc0 (s : S) : loc := mkLoc s 0 [] false.
  Definition start_loc (c : ccall) : loc :=
    match c with
    | KProcess _ _ _ _ s | KMulti _ _ _ s | KFirst _ _ _ s | KEach _ _ _ _ s | KCount s | KEff s | KClear s | KRebuild _ _ s => loc0 s
    end.
  (** Calls under the exclusive lock of the object: Clear 768-777, Rebuild 779-794. *)
  Definition excl_of (c : ccall) : option (cache -> option cache) :=
    match c with
    | KClear _ => Some (cache_clear buckets)
    | KRebuild cap mcap _ => Some (fun c => cache_rebuild hash buckets c cap mcap)
    | _ => None
    end.

  (** Program points. *)
  Inductive pc :=
  | PIdle
  | PMain (c : ccall)                                                          (** about to lock mutex_ of the object *)
  | PGo (p : prog) (x : loc)                                                   (** mutex_ held in shared mode *)
  | PLock (l : list (N * act)) (k : loc -> prog) (x : loc) (got todo : list N) (** locking the slots of a section, tkrzw_dbm_cache.cc:691-693 *)
  | PBody (l : list (N * act)) (k : loc -> prog) (x : loc) (r : list (N * act)) (** [r] is left of the section *)
  | PUn (k : loc -> prog) (x : loc) (todo : list N)                            (** unlocking, tkrzw_dbm_cache.cc:701-703 *)
  | PExcl (c : ccall) (f : cache -> option cache)                              (** mutex_ held exclusively *)
  | PRet (x : loc).
  (** The slots of a section: std::set of addresses in an array, so ascending, each once.  tkrzw_dbm_cache.cc:685-690 *)
  Definition sec_slots (l : list (N * act)) : list N := slotset (map fst l).

  Inductive act_result := Wait | UB | Next (c : cache) (p : pc).
  Definition cact (c : cache) (p : pc) : act_result :=
    match p with
    | PIdle | PMain _ | PRet _ | PLock _ _ _ _ (_ :: _) => Wait
    | PGo Ret x => Next c (PRet x)
    | PGo (Sec l k) x => Next c (PLock l k x [] (sec_slots l))
    | PGo (Local f k) x => Next c (PGo k (f x))
    | PGo (Peek _ k) x => Next c (PGo k x)
    | PLock l k x _ [] => Next c (PBody l k x l)
    | PBody l k x ((i, a) :: r) => match exec_act a (c_slots c i) x with None => UB | Some (s', x') => Next (with_slot c i s') (PBody l k x' r) end
    | PBody l k x [] => Next c (PUn k x (rev (sec_slots l)))
    | PUn k x (_ :: todo) => Next c (PUn k x todo)
    | PUn k x [] => Next c (PGo (k x) x)
    | PExcl ca f => match f c with None => UB | Some c' => Next c' (PRet (start_loc ca)) end
    end.

  (** The locks held. *)
  Definition main_of (p : pc) : option mode :=
    match p with PIdle | PMain _ | PRet _ => None | PExcl _ _ => Some MX | _ => Some MS end.
  Definition slots_held (p : pc) : list N :=
    match p with
    | PLock _ _ _ got _ => got
    | PBody l _ _ _ => sec_slots l
    | PUn _ _ todo => todo
    | _ => []
    end.

  (** The slots whose memory the next transition accesses; [true]: it may write there. *)
  Inductive access : pc -> N -> bool -> Prop :=
  | ac_body l k x i a r : access (PBody l k x ((i, a) :: r)) i true
  | ac_peek i k x : access (PGo (Peek i k) x) i false
  | ac_excl c f i : access (PExcl c f) i true.

  Record sys := mkSys { y_c : cache; y_pc : nat -> pc }.
  Definition upd (f : nat -> pc) (t : nat) (p : pc) : nat -> pc := fun u => if Nat.eqb u t then p else f u.
  (** A call returns its local variables: what the processors have been shown, the sum, and whether a record was found. *)
  Inductive ev := ECall (t : nat) (c : ccall) | ERet (t : nat) (x : loc) | ETau.
  (** The threads are 0 .. n-1. *)
  Variable n : nat.
  Definition start (c : ccall) : pc := match excl_of c with Some f => PExcl c f | None => PGo (prog_of c) (start_loc c) end.
  Definition free_main (y : sys) (t : nat) (md : mode) : Prop := forall u b, u <> t -> main_of (y_pc y u) = Some b -> md = MS /\ b = MS.
  Inductive step (y : sys) : ev -> sys -> Prop :=
  | st_call t c : (t < n)%nat -> y_pc y t = PIdle -> step y (ECall t c) (mkSys (y_c y) (upd (y_pc y) t (PMain c)))
  | st_main t c : y_pc y t = PMain c -> free_main y t (if excl_of c then MX else MS) -> step y ETau (mkSys (y_c y) (upd (y_pc y) t (start c)))
  | st_slot t l k x got j todo : y_pc y t = PLock l k x got (j :: todo) -> (forall u, u <> t -> ~ In j (slots_held (y_pc y u))) ->
      step y ETau (mkSys (y_c y) (upd (y_pc y) t (PLock l k x (got ++ [j]) todo)))
  | st_act t c' p' : cact (y_c y) (y_pc y t) = Next c' p' -> step y ETau (mkSys c' (upd (y_pc y) t p'))
  | st_ret t x : y_pc y t = PRet x -> step y (ERet t x) (mkSys (y_c y) (upd (y_pc y) t PIdle)).
  Inductive run : sys -> list ev -> sys -> Prop :=
  | run_nil y : run y [] y
  | run_tau y y1 tr y2 : run y tr y1 -> step y1 ETau y2 -> run y tr y2
  | run_ev y y1 tr e y2 : run y tr y1 -> e <> ETau -> step y1 e y2 -> run y (tr ++ [e]) y2.
  Definition init (cap : N) (mcap : Z) : sys := mkSys (cache_new buckets cap mcap) (fun _ => PIdle).
End Conc.
Arguments mkLoc {S}. Arguments x_s {S}. Arguments x_n {S}. Arguments x_keys {S}. Arguments x_hit {S}.
Arguments AProc {S}. Arguments ALook {S}. Arguments AFirst {S}. Arguments AKeys {S}. Arguments AEach {S}. Arguments ACount {S}. Arguments AEff {S}.
Arguments exec_act hash {S}. Arguments Ret {S}. Arguments Sec {S}. Arguments Local {S}. Arguments Peek {S}.
Arguments KProcess {S}. Arguments KMulti {S}. Arguments KFirst {S}. Arguments KEach {S}. Arguments KCount {S}. Arguments KEff {S}. Arguments KClear {S}. Arguments KRebuild {S}.
Arguments first_from {S}. Arguments each_keys {S}. Arguments each_from {S}. Arguments call_empty {S}. Arguments sum_prog {S}. Arguments prog_of hash {S}. Arguments loc0 {S}. Arguments start_loc {S}. Arguments excl_of hash buckets {S}.
Arguments PIdle {S}. Arguments PMain {S}. Arguments PGo {S}. Arguments PLock {S}. Arguments PBody {S}. Arguments PUn {S}. Arguments PExcl {S}. Arguments PRet {S}.
Arguments sec_slots {S}. Arguments Wait {S}. Arguments UB {S}. Arguments Next {S}. Arguments cact hash {S}. Arguments main_of {S}. Arguments slots_held {S}. Arguments access {S}.
Arguments mkSys {S}. Arguments y_c {S}. Arguments y_pc {S}. Arguments upd {S}. Arguments ECall {S}. Arguments ERet {S}. Arguments ETau {S}.
Arguments start hash buckets {S}. Arguments free_main {S}. Arguments step hash buckets {S}. Arguments run hash buckets {S}.
