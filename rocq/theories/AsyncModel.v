(** AsyncDBM and StatusFuture.  Source: /repo/tkrzw_dbm_async.h and /repo/tkrzw_dbm_async.cc.
    The task queue is that of TaskModel; tasks are numbered in the order of the calls.  A call of the
    underlying database is one step (its operations are atomic); futures are the results that the
    tasks have set. *)
From Coq Require Import List NArith ZArith Bool Arith.
Import ListNotations.
From Verif Require Import Bytes StatusModel DbmModel TaskModel.
Local Open Scope nat_scope.

(** A string_view argument that may be nullptr or ANY_DATA, tkrzw_dbm_async.cc:288-299. *)
Inductive pview (B : Type) := PNull | PAny | PStr (b : B).
Arguments PNull {B}. Arguments PAny {B}. Arguments PStr {B}.
(** Methods that are taken as any function of the database: their arguments are copied or moved into the
    task as those of the others (numbers, paths, maps of parameters, processors, pointers to other objects). *)
Inductive omethod := MPushLast | MClear | MRebuild | MSynchronize | MCopyFileData | MExport | MExportToFlatRecords | MImportFromFlatRecords
  | MSearchModal | MProcess | MProcessFirst | MProcessEach | MProcessMulti.
(** What a future carries, tkrzw_dbm_async.h:538-650; RObj: a processor, a list of keys and the like. *)
Inductive res := RCode (c : code) | RStr (c : code) (b : bytes) | RMap (c : code) (l : list (bytes * bytes)) | RPair (c : code) (k v : bytes)
  | RInt (c : code) (z : Z) | RObj (c : code) (b : bytes).
Definition res_code (r : res) : code := match r with RCode c | RStr c _ | RMap c _ | RPair c _ _ | RInt c _ | RObj c _ => c end.

(** Calls; the strings are of type [B]: places in the memory of the caller, places in a task, or bytes. *)
Inductive acall (T B : Type) :=
| AGet (k : B) | AGetMulti (ks : list B) | ASetC (k v : B) (ow : bool) | ASetMulti (rs : list (B * B)) (ow : bool)
| ARemoveC (k : B) | ARemoveMulti (ks : list B) | AAppendC (k v d : B) | AAppendMulti (rs : list (B * B)) (d : B)
| ACas (k : B) (e d : pview B) | ACasMulti (e d : list (B * pview B)) | AInc (k : B) (inc init : Z)
| ARekey (o n : B) (ow cp : bool) | APop | AOther (m : omethod) (f : T -> option (res * T)).
Arguments AGet {T B}. Arguments AGetMulti {T B}. Arguments ASetC {T B}. Arguments ASetMulti {T B}. Arguments ARemoveC {T B}. Arguments ARemoveMulti {T B}.
Arguments AAppendC {T B}. Arguments AAppendMulti {T B}. Arguments ACas {T B}. Arguments ACasMulti {T B}. Arguments AInc {T B}. Arguments ARekey {T B}.
Arguments APop {T B}. Arguments AOther {T B}.

(** * Strings of a task *)
(** A std::vector<std::string>: room, the number of reallocations, elements.  A string_view of an element is the
    number of reallocations and the index: after a reallocation it dangles. *)
Record vec := mkVec { v_cap : nat; v_gen : nat; v_el : list bytes }.
Definition vref : Type := nat * nat.
(** reserve of an empty vector *)
Definition v_new (n : nat) : vec := mkVec n 0 [].
(** emplace_back, and a view of back(). *)
Definition v_push (v : vec) (b : bytes) : vec * vref :=
  let v' := if length (v_el v) <? v_cap v then mkVec (v_cap v) (v_gen v) (v_el v ++ [b])
            else mkVec (S (2 * v_cap v)) (S (v_gen v)) (v_el v ++ [b]) in
  (v', (v_gen v', length (v_el v))).
(** What a view shows when the task is done; None: it dangles. *)
Definition v_look (v : vec) (r : vref) : option bytes := if fst r =? v_gen v then nth_error (v_el v) (snd r) else None.
Fixpoint v_pushes (v : vec) (l : list bytes) : vec * list vref :=
  match l with [] => (v, []) | b :: l' => let '(v1, r) := v_push v b in let '(v2, rs) := v_pushes v1 l' in (v2, r :: rs) end.
Section build.
  Context {T L : Type}.
  Variable mem : L -> bytes.
  (** Two strings per record: the nodes of task->records, which never move; the source is iterated in the order of the
      keys, so that the copy has the same order. tkrzw_dbm_async.cc:139-145, 252-258 *)
  Fixpoint b_recs (v : vec) (l : list (L * L)) : vec * list (vref * vref) :=
    match l with
    | [] => (v, [])
    | (a, b) :: l' => let '(v1, r1) := v_push v (mem a) in let '(v2, r2) := v_push v1 (mem b) in let '(v3, rs) := b_recs v2 l' in (v3, (r1, r2) :: rs)
    end.
  (** expected_view and expected, tkrzw_dbm_async.cc:288-299. *)
  Definition b_view (v : vec) (p : pview L) : vec * pview vref :=
    match p with PNull => (v, PNull) | PAny => (v, PAny) | PStr l => let '(v', r) := v_push v (mem l) in (v', PStr r) end.
  (** The loops over expected, tkrzw_dbm_async.cc:327-339. *)
  Fixpoint b_expected (v : vec) (l : list (L * pview L)) : vec * list (vref * pview vref) :=
    match l with
    | [] => (v, [])
    | (a, p) :: l' => let '(v1, r1) := v_push v (mem a) in let '(v2, r2) := b_view v1 p in let '(v3, rs) := b_expected v2 l' in (v3, (r1, r2) :: rs)
    end.
  (** and over desired, where ANY_DATA is copied as a string of its bytes, tkrzw_dbm_async.cc:340-350. *)
  Fixpoint b_desired (v : vec) (l : list (L * pview L)) : vec * list (vref * pview vref) :=
    match l with
    | [] => (v, [])
    | (a, p) :: l' =>
        let '(v1, r1) := v_push v (mem a) in
        let '(v2, r2) := match p with
                         | PNull => (v1, PNull)
                         | PAny => let '(v', r) := v_push v1 any_bytes in (v', PStr r)
                         | PStr b => let '(v', r) := v_push v1 (mem b) in (v', PStr r)
                         end in
        let '(v3, rs) := b_desired v2 l' in (v3, (r1, r2) :: rs)
    end.
  (** The tasks.  Members that are strings are elements of a vector with enough room (a task does not move).
      GetMulti 63-90, SetMulti 119-150, RemoveMulti 175-202, AppendMulti 232-263, CompareExchange 265-303,
      CompareExchangeMulti 305-354 and the others of tkrzw_dbm_async.cc. *)
  Definition build (c : acall T L) : vec * acall T vref :=
    match c with
    | AGet k => let '(v, r) := v_push (v_new 1) (mem k) in (v, AGet r)
    | AGetMulti ks => let '(v, _) := v_pushes (v_new (length ks)) (map mem ks) in (v, AGetMulti (map (fun i => (v_gen v, i)) (seq 0 (length ks))))
    | ASetC k x ow => let '(v, r) := v_push (v_new 2) (mem k) in let '(v', r') := v_push v (mem x) in (v', ASetC r r' ow)
    | ASetMulti rs ow => let '(v, l) := b_recs (v_new (length rs * 2)) rs in (v, ASetMulti l ow)
    | ARemoveC k => let '(v, r) := v_push (v_new 1) (mem k) in (v, ARemoveC r)
    | ARemoveMulti ks => let '(v, l) := v_pushes (v_new (length ks)) (map mem ks) in (v, ARemoveMulti l)
    | AAppendC k x d => let '(v, r) := v_push (v_new 3) (mem k) in let '(v', r') := v_push v (mem x) in let '(v'', r'') := v_push v' (mem d) in (v'', AAppendC r r' r'')
    | AAppendMulti rs d => let '(v, r) := v_push (v_new (1 + length rs * 2)) (mem d) in let '(v', l) := b_recs v rs in (v', AAppendMulti l r)
    | ACas k e d => let '(v, r) := v_push (v_new 3) (mem k) in let '(v', r') := b_view v e in let '(v'', r'') := b_view v' d in (v'', ACas r r' r'')
    | ACasMulti e d => let '(v, l) := b_expected (v_new (length e * 2 + length d * 2)) e in let '(v', l') := b_desired v d in (v', ACasMulti l l')
    | AInc k i j => let '(v, r) := v_push (v_new 1) (mem k) in (v, AInc r i j)
    | ARekey o n ow cp => let '(v, r) := v_push (v_new 2) (mem n) in let '(v', r') := v_push v (mem o) in (v', ARekey r' r ow cp)
    | APop => (v_new 0, APop)
    | AOther m f => (v_new 0, AOther m f)
    end.
End build.

(** Reading all the views of a call. *)
Section read.
  Context {T B C : Type}.
  Variable f : B -> option C.
  Fixpoint all {X Y} (g : X -> option Y) (l : list X) : option (list Y) :=
    match l with [] => Some [] | x :: l' => match g x, all g l' with Some y, Some r => Some (y :: r) | _, _ => None end end.
  Definition r_pair (p : B * B) : option (C * C) := match f (fst p), f (snd p) with Some a, Some b => Some (a, b) | _, _ => None end.
  Definition r_view (p : pview B) : option (pview C) := match p with PNull => Some PNull | PAny => Some PAny | PStr b => option_map PStr (f b) end.
  Definition r_kv (p : B * pview B) : option (C * pview C) := match f (fst p), r_view (snd p) with Some a, Some b => Some (a, b) | _, _ => None end.
  Definition r_call (c : acall T B) : option (acall T C) :=
    match c with
    | AGet k => option_map AGet (f k)
    | AGetMulti ks => option_map AGetMulti (all f ks)
    | ASetC k v ow => match f k, f v with Some a, Some b => Some (ASetC a b ow) | _, _ => None end
    | ASetMulti rs ow => option_map (fun l => ASetMulti l ow) (all r_pair rs)
    | ARemoveC k => option_map ARemoveC (f k)
    | ARemoveMulti ks => option_map ARemoveMulti (all f ks)
    | AAppendC k v d => match f k, f v, f d with Some a, Some b, Some e => Some (AAppendC a b e) | _, _, _ => None end
    | AAppendMulti rs d => match all r_pair rs, f d with Some l, Some b => Some (AAppendMulti l b) | _, _ => None end
    | ACas k e d => match f k, r_view e, r_view d with Some a, Some b, Some g => Some (ACas a b g) | _, _, _ => None end
    | ACasMulti e d => match all r_kv e, all r_kv d with Some a, Some b => Some (ACasMulti a b) | _, _ => None end
    | AInc k i j => option_map (fun a => AInc a i j) (f k)
    | ARekey o n ow cp => match f o, f n with Some a, Some b => Some (ARekey a b ow cp) | _, _ => None end
    | APop => Some APop
    | AOther m g => Some (AOther m g)
    end.
End read.

Definition to_sview (p : pview bytes) : sview := match p with PNull => VNull | PAny => VAny | PStr b => VStr b end.
Section async.
  Variable D : dbm.
  (** The body of Do up to the postprocessing: the method of the database with fresh variables for its results, e.g.
      tkrzw_dbm_async.cc:46-47.  None: undefined (Increment may overflow). *)
  Definition do_call (c : acall (d_st D) bytes) (d : d_st D) : option (res * d_st D) :=
    match c with
    | AGet k => let '(c, v, d') := op_get D d k [] in Some (RStr c v, d')
    | AGetMulti ks => let '(c, l, d') := op_get_multi D d ks [] SUCCESS in Some (RMap c l, d')
    | ASetC k v ow => let '(c, _, d') := op_set D d k v ow [] in Some (RCode c, d')
    | ASetMulti rs ow => let '(c, d') := op_set_multi D d rs ow SUCCESS in Some (RCode c, d')
    | ARemoveC k => let '(c, _, d') := op_remove D d k [] in Some (RCode c, d')
    | ARemoveMulti ks => let '(c, d') := op_remove_multi D d ks SUCCESS in Some (RCode c, d')
    | AAppendC k v dl => let '(c, d') := op_append D d k v dl in Some (RCode c, d')
    | AAppendMulti rs dl => let '(c, d') := op_append_multi D d rs dl SUCCESS in Some (RCode c, d')
    | ACas k e x => let '(c, _, _, d') := op_cas D d k (to_sview e) (to_sview x) [] false in Some (RCode c, d')
    | ACasMulti e x => let '(c, d') := op_cas_multi D d (map (fun p => (fst p, to_sview (snd p))) e) (map (fun p => (fst p, to_sview (snd p))) x) in Some (RCode c, d')
    | AInc k i j => match op_inc D d k i 0 j with Some (c, z, d') => Some (RInt c z, d') | None => None end
    | ARekey o n ow cp => let '(c, _, d') := op_rekey D d o n ow cp [] in Some (RCode c, d')
    | APop => let '(c, (k, v), d') := op_pop D d [] [] in Some (RPair c k v, d')
    | AOther _ f => f d
    end.
  Definition t_get := [71; 101; 116]%N. Definition t_multi := [77; 117; 108; 116; 105]%N. Definition t_set := [83; 101; 116]%N. Definition t_remove := [82; 101; 109; 111; 118; 101]%N.
  Definition t_append := [65; 112; 112; 101; 110; 100]%N. Definition t_cas := [67; 111; 109; 112; 97; 114; 101; 69; 120; 99; 104; 97; 110; 103; 101]%N.
  Definition t_inc := [73; 110; 99; 114; 101; 109; 101; 110; 116]%N. Definition t_rekey := [82; 101; 107; 101; 121]%N. Definition t_pop := [80; 111; 112; 70; 105; 114; 115; 116]%N.
  Definition t_push := [80; 117; 115; 104; 76; 97; 115; 116]%N. Definition t_clear := [67; 108; 101; 97; 114]%N. Definition t_rebuild := [82; 101; 98; 117; 105; 108; 100]%N.
  Definition t_sync := [83; 121; 110; 99; 104; 114; 111; 110; 105; 122; 101]%N. Definition t_copy := [67; 111; 112; 121; 70; 105; 108; 101; 68; 97; 116; 97]%N.
  Definition t_export := [69; 120; 112; 111; 114; 116]%N. Definition t_import := [73; 109; 112; 111; 114; 116]%N. Definition t_records := [82; 101; 99; 111; 114; 100; 115]%N.
  Definition t_to_flat := [84; 111; 70; 108; 97; 116]%N. Definition t_from_flat := [70; 114; 111; 109; 70; 108; 97; 116]%N. Definition t_search := [83; 101; 97; 114; 99; 104; 77; 111; 100; 97; 108]%N.
  (** The name given to Postprocess; None: the task does not call it (Process, ProcessFirst, ProcessEach, ProcessMulti,
      tkrzw_dbm_async.h:655-863).  E.g. tkrzw_dbm_async.cc:48-50; 604-606 and 627-629 for the flat records. *)
  Definition post_name {B} (c : acall (d_st D) B) : option bytes :=
    match c with
    | AGet _ => Some t_get | AGetMulti _ => Some (t_get ++ t_multi) | ASetC _ _ _ => Some t_set | ASetMulti _ _ => Some (t_set ++ t_multi)
    | ARemoveC _ => Some t_remove | ARemoveMulti _ => Some (t_remove ++ t_multi) | AAppendC _ _ _ => Some t_append | AAppendMulti _ _ => Some (t_append ++ t_multi)
    | ACas _ _ _ => Some t_cas | ACasMulti _ _ => Some (t_cas ++ t_multi) | AInc _ _ _ => Some t_inc | ARekey _ _ _ _ => Some t_rekey | APop => Some t_pop
    | AOther m _ =>
        match m with
        | MPushLast => Some t_push | MClear => Some t_clear | MRebuild => Some t_rebuild | MSynchronize => Some t_sync | MCopyFileData => Some t_copy | MExport => Some t_export
        | MExportToFlatRecords => Some (t_export ++ t_records ++ t_to_flat ++ t_records)
        | MImportFromFlatRecords => Some (t_import ++ t_records ++ t_from_flat ++ t_records)
        | MSearchModal => Some t_search | MProcess | MProcessFirst | MProcessEach | MProcessMulti => None
        end
    end.

  (** A task: its strings, its body with views of them, the postprocessor (the raw pointer taken from postproc_;
      None: nullptr). *)
  Record task := mkTask { t_vec : vec; t_body : acall (d_st D) vref; t_post : option nat }.
  (** The whole: the queue, the database, whether something undefined has been done, the tasks, their results, what the
      postprocessors were told, the number of calls, the memory of the callers, postproc_ (objects are numbered; a replaced one
      is deleted) and a ghost: the calls with the bytes of their arguments at the time of the call. *)
  Record asys := mkA { a_q : sys; a_db : d_st D; a_ub : bool; a_task : nat -> option task; a_res : nat -> option res; a_notes : list (nat * bytes * code);
    a_next : nat; a_mem : nat -> bytes; a_post : option nat; a_posts : nat; a_call : nat -> option (acall (d_st D) bytes) }.
  Definition put {A} (f : nat -> option A) (k : nat) (x : A) : nat -> option A := fun i => if i =? k then Some x else f i.
  (** Do of task [k], e.g. tkrzw_dbm_async.cc:45-52: views are read, the method is called, the postprocessor if there is one,
      then the promise is set. *)
  Definition do_task (a : asys) (s' : sys) (k : nat) : asys :=
    let undef := mkA s' (a_db a) true (a_task a) (a_res a) (a_notes a) (a_next a) (a_mem a) (a_post a) (a_posts a) (a_call a) in
    if a_ub a then undef
    else match a_task a k with
    | None => undef
    | Some t =>
        match r_call (v_look (t_vec t)) (t_body t) with
        | None => undef
        | Some c =>
            match do_call c (a_db a) with
            | None => undef
            | Some (r, d') =>
                let fin notes := mkA s' d' false (a_task a) (put (a_res a) k r) notes (a_next a) (a_mem a) (a_post a) (a_posts a) (a_call a) in
                match t_post t, post_name (t_body t) with
                | Some p, Some n =>
                    if match a_post a with Some p' => p =? p' | None => false end then fin (a_notes a ++ [(p, n, res_code r)])
                    else undef
                | _, _ => fin (a_notes a)
                end
            end
        end
    end.
  Definition with_q (a : asys) (s' : sys) : asys := mkA s' (a_db a) (a_ub a) (a_task a) (a_res a) (a_notes a) (a_next a) (a_mem a) (a_post a) (a_posts a) (a_call a).
  Variable nw : nat.
  (** A step of a thread; the step in which a worker does a task is that of [do_task]. *)
  Inductive astep : asys -> asys -> Prop :=
  | as_other t a s' : step nw t (a_q a) s' -> executed s' = executed (a_q a) -> astep a (with_q a s')
  | as_do t a s' k : step nw t (a_q a) s' -> executed s' = executed (a_q a) ++ [k] -> astep a (do_task a s' k).
  (** What users do: a call of a method by thread [t], the destructor, changes of their memory, SetCommonPostprocessor
      (tkrzw_dbm_async.cc:35-37); and spurious wake-ups. *)
  Inductive aenv : asys -> asys -> Prop :=
  | ae_call t (c : acall (d_st D) nat) (b : acall (d_st D) bytes) a : pcs (a_q a) t = CIdle -> r_call (fun l => Some (a_mem a l)) c = Some b ->
      aenv a (mkA (mkSys (q (a_q a)) (running (a_q a)) (mtx (a_q a)) (upd (pcs (a_q a)) t (CPush (a_next a))) (added (a_q a)) (popped (a_q a)) (executed (a_q a)))
        (a_db a) (a_ub a) (put (a_task a) (a_next a) (mkTask (fst (build (a_mem a) c)) (snd (build (a_mem a) c)) (a_post a))) (a_res a) (a_notes a)
        (S (a_next a)) (a_mem a) (a_post a) (a_posts a) (put (a_call a) (a_next a) b))
  | ae_stop a : pcs (a_q a) nw = CIdle ->
      aenv a (with_q a (mkSys (q (a_q a)) (running (a_q a)) (mtx (a_q a)) (upd (pcs (a_q a)) nw (SHead (added (a_q a)))) (added (a_q a)) (popped (a_q a)) (executed (a_q a))))
  | ae_wake t a : pcs (a_q a) t = WBlocked ->
      aenv a (with_q a (mkSys (q (a_q a)) (running (a_q a)) (mtx (a_q a)) (upd (pcs (a_q a)) t WWake) (added (a_q a)) (popped (a_q a)) (executed (a_q a))))
  | ae_mem m a : aenv a (mkA (a_q a) (a_db a) (a_ub a) (a_task a) (a_res a) (a_notes a) (a_next a) m (a_post a) (a_posts a) (a_call a)).
  Inductive asetpost : asys -> asys -> Prop :=
  | ap_set a : asetpost a (mkA (a_q a) (a_db a) (a_ub a) (a_task a) (a_res a) (a_notes a) (a_next a) (a_mem a) (Some (a_posts a)) (S (a_posts a)) (a_call a))
  | ap_null a : asetpost a (mkA (a_q a) (a_db a) (a_ub a) (a_task a) (a_res a) (a_notes a) (a_next a) (a_mem a) None (a_posts a) (a_call a)).
  (** The constructor, tkrzw_dbm_async.cc:25-29. *)
  Definition a_init (d : d_st D) (m : nat -> bytes) : asys := mkA (init nw) d false (fun _ => None) (fun _ => None) [] 0 m None 0 (fun _ => None).
  (** All executions from a database [d].  [late]: SetCommonPostprocessor may be called after other methods. *)
  Inductive areach (late : bool) (d : d_st D) : asys -> Prop :=
  | ar_init m : areach late d (a_init d m)
  | ar_step a a' : areach late d a -> astep a a' -> areach late d a'
  | ar_env a a' : areach late d a -> aenv a a' -> areach late d a'
  | ar_post a a' : areach late d a -> late = true \/ a_next a = 0 -> asetpost a a' -> areach late d a'.
End async.

(** * StatusFuture *)
(** type_, tkrzw_dbm_async.h:649-651. *)
Inductive ftype := FStatus | FString | FStringPair | FStringVector | FStringMap | FInteger.
Definition ftype_eqb (a b : ftype) : bool :=
  match a, b with FStatus, FStatus | FString, FString | FStringPair, FStringPair | FStringVector, FStringVector | FStringMap, FStringMap | FInteger, FInteger => true | _, _ => false end.
(** future_ (nullptr after a move; valid or not) and type_. *)
Record sfut := mkSf { sf_ptr : option bool; sf_type : ftype }.
(** The move constructor: the new object and the old one, tkrzw_dbm_async.cc:698-700. *)
Definition sf_move (f : sfut) : sfut * sfut := (f, mkSf None (sf_type f)).
Inductive sf_out := SfUndef | SfError (c : code) | SfGot (r : res).
(** Get, GetString, ..., tkrzw_dbm_async.cc:794-857, when the result is there. *)
Definition sf_get (g : ftype) (f : sfut) (r : res) : sf_out * sfut :=
  let err := SfError (match g with FStatus | FString => INVALID_ARGUMENT_ERROR | _ => INFEASIBLE_ERROR end) in
  if ftype_eqb (sf_type f) g then
    match sf_ptr f with
    | None => (SfUndef, f)
    | Some true => (SfGot r, mkSf (Some false) (sf_type f))
    | Some false => (err, f)
    end
  else (err, f).
(** Wait, tkrzw_dbm_async.cc:729-792, when the result is there; wait() of a future that is not valid is undefined.
    None: undefined. *)
Definition sf_wait (f : sfut) : option bool := match sf_ptr f with Some true => Some true | _ => None end.
