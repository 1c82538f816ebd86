(** The iterator of the hash database.
    Source: HashDBMImpl::ReadNextBucketRecords, /repo/tkrzw_dbm_hash.cc:1836-1887,
    and class HashDBMIteratorImpl, 2297-2400 (First, Jump, Next, Process, ReadKeys).
    Simplifications: the database is open; one thread uses the iterator, so the
    compare-and-exchange on the bucket index always succeeds; Rebuild does not
    run meanwhile. *)
From Verif Require Import Bytes BytesOrder MapSpec CodecModel FileModel HashUtilModel HashRecModel FbpModel HashDbModel.
Open Scope N_scope.

(** std::set<std::string>::emplace on the ascending list of the elements. *)
Fixpoint kset_add (k : bytes) (l : list bytes) : list bytes :=
  match l with
  | [] => [k]
  | x :: l' => match bcmp k x with Lt => k :: x :: l' | Eq => x :: l' | Gt => x :: kset_add k l' end
  end.
(** CheckSet, /repo/tkrzw_containers.h. *)
Definition kset_mem (k : bytes) (l : list bytes) : bool := existsb (beqb k) l.

(** The iterator: bucket_index_ (None for -1) and keys_. *)
Record hiter := mkhiter { it_bucket : option N; it_keys : list bytes }.

Inductive istatus := IOk | INotFound | IBroken | INoFuel.

(** The loop over the chain of a bucket, tkrzw_dbm_hash.cc:1856-1880. *)
Inductive cres := CKeys (ks : list bytes) | CBroken | CNoFuel.
Fixpoint chain_keys (fuel : nat) (c : hcfg) (f : file) (mrs cur : N) (dead keys : list bytes) : cres :=
  match fuel with
  | O => CNoFuel
  | S fuel' =>
      if 0 <? cur then
        match read_meta c f cur mrs with
        | None => CBroken
        | Some m =>
            if kset_mem (m_key m) dead then chain_keys fuel' c f mrs (m_child m) dead keys
            else match m_type m with
                 | OpSet | OpAdd => chain_keys fuel' c f mrs (m_child m) dead (kset_add (m_key m) keys)
                 | OpRemove => chain_keys fuel' c f mrs (m_child m) (kset_add (m_key m) dead) keys
                 | OpVoid => chain_keys fuel' c f mrs (m_child m) dead keys
                 end
        end
      else CKeys keys
  end.

(** ReadNextBucketRecords, tkrzw_dbm_hash.cc:1836-1887; [b] is the bucket
    index, [keys] the content of keys_ on entry. *)
Fixpoint read_next (fuel : nat) (d : hdb) (f : file) (b : N) (keys : list bytes) : hiter * istatus :=
  match fuel with
  | O => (mkhiter (Some b) keys, INoFuel)
  | S fuel' =>
      if d_nb d <=? b then (mkhiter None keys, INotFound)
      else
        match get_bucket d f b with
        | None => (mkhiter (Some (b + 1)) keys, IBroken)
        | Some cur =>
            match chain_keys (S (S (N.to_nat (fsize f)))) (d_c d) f (d_mrs d) cur [] keys with
            | CBroken => (mkhiter (Some (b + 1)) keys, IBroken)
            | CNoFuel => (mkhiter (Some (b + 1)) keys, INoFuel)
            | CKeys ks => if (0 <? cur) && negb (match ks with [] => true | _ => false end)
                          then (mkhiter (Some (b + 1)) ks, IOk)
                          else read_next fuel' d f (b + 1) ks
            end
        end
  end.
Definition next_bucket (d : hdb) (f : file) (it : hiter) : hiter * istatus :=
  match it_bucket it with
  | None => (it, INotFound)
  | Some b => read_next (S (N.to_nat (d_nb d - b))) d f b (it_keys it)
  end.

(** First, tkrzw_dbm_hash.cc:2298-2306. *)
Definition it_first : hiter := mkhiter (Some 0) [].

(** ReadKeys, tkrzw_dbm_hash.cc:2385-2400. *)
Definition read_keys (d : hdb) (f : file) (it : hiter) : hiter * istatus :=
  match it_bucket it with
  | None => (it, INotFound)
  | Some _ => match it_keys it with
              | [] => match next_bucket d f it with
                      | (it', IOk) => (it', match it_keys it' with [] => INotFound | _ => IOk end)
                      | r => r
                      end
              | _ => (it, IOk)
              end
  end.

(** Next, tkrzw_dbm_hash.cc:2333-2341. *)
Definition it_next (d : hdb) (f : file) (it : hiter) : hiter * istatus :=
  match read_keys d f it with
  | (it', IOk) => (mkhiter (it_bucket it') (tl (it_keys it')), IOk)
  | r => r
  end.

(** Jump, tkrzw_dbm_hash.cc:2308-2331. *)
Fixpoint drop_to (k : bytes) (l : list bytes) : option (list bytes) :=
  match l with
  | [] => None
  | x :: l' => if beqb k x then Some l else drop_to k l'
  end.
Definition it_jump (d : hdb) (f : file) (key : bytes) : hiter * istatus :=
  match next_bucket d f (mkhiter (Some (primary_hash key (d_nb d))) []) with
  | (it', IOk) => match drop_to key (it_keys it') with
                  | Some ks => (mkhiter (it_bucket it') ks, IOk)
                  | None => (mkhiter None [], INotFound)
                  end
  | r => r
  end.

(** Process, tkrzw_dbm_hash.cc:2348-2383.  The wrapper forwards ProcessFull
    only; a missing record is answered with NOOP by the base class
    (/repo/tkrzw_dbm.h:52-60).  The last component is the key and what the
    processor was called with. *)
Definition it_process (d : hdb) (s : hst) (it : hiter) (proc : bytes -> processor) (writable : bool)
  : hst * hiter * istatus * option (bytes * option bytes) :=
  match read_keys d (s_file s) it with
  | (it', IOk) =>
      match it_keys it' with
      | [] => (s, it', INotFound, None)
      | key :: rest =>
          let wrapped := fun old => match old with Some _ => proc key old | None => ANoop end in
          let r := h_process d s key wrapped true writable in
          match h_status r, h_seen r with
          | HOk, Some (Some v) =>
              (h_st r,
               (match proc key (Some v) with ARemove => mkhiter (it_bucket it') rest | _ => it' end),
               IOk, Some (key, Some v))
          | HOk, _ => (h_st r, it', INotFound, None)
          | HNoFuel, _ => (h_st r, it', INoFuel, None)
          | _, _ => (h_st r, it', IBroken, None)
          end
      end
  | (it', st) => (s, it', st, None)
  end.

(** Reading the current record: Iterator::Get. *)
Definition it_get (d : hdb) (s : hst) (it : hiter) : hiter * istatus * option (bytes * option bytes) :=
  let '(_, it', st, out) := it_process d s it (fun _ _ => ANoop) false in (it', st, out).

(** A scan: Get and Next repeated [n] times, collecting the records. *)
Fixpoint it_scan (n : nat) (d : hdb) (s : hst) (it : hiter) : hiter * list (istatus * option (bytes * option bytes)) :=
  match n with
  | O => (it, [])
  | S n' =>
      let '(it1, st, out) := it_get d s it in
      let '(it2, _) := it_next d (s_file s) it1 in
      let '(it3, outs) := it_scan n' d s it2 in
      (it3, (st, out) :: outs)
  end.

(** An interleaving of database operations and steps of one iterator: the
    events and the keys passed by the iterator (by Next, or by a removal through
    the iterator). *)
Inductive ievent := EOp (o : hop) | EProc (proc : bytes -> processor) (writable : bool) | ENext.
Definition passed (before after : hiter) : list bytes :=
  match it_keys before, it_keys after with
  | k :: _, [] => [k]
  | k :: _, k' :: _ => if beqb k k' then [] else [k]
  | [], _ => []
  end.
Definition it_event (d : hdb) (s : hst) (it : hiter) (e : ievent) : hst * hiter * list bytes :=
  match e with
  | EOp o => (h_st (h_process d s (o_key o) (o_proc o) (o_readable o) (o_writable o)), it, [])
  | EProc proc w =>
      let '(s', it', _, _) := it_process d s it proc w in
      (s', it', passed (fst (read_keys d (s_file s) it)) it')
  | ENext => (s, fst (it_next d (s_file s) it), passed (fst (read_keys d (s_file s) it)) (fst (it_next d (s_file s) it)))
  end.
Fixpoint it_run (d : hdb) (s : hst) (it : hiter) (es : list ievent) : hst * hiter * list bytes :=
  match es with
  | [] => (s, it, [])
  | e :: es' =>
      let '(s1, it1, p1) := it_event d s it e in
      let '(s2, it2, p2) := it_run d s1 it1 es' in
      (s2, it2, p1 ++ p2)
  end.
