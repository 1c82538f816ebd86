(** TinyDBM: chains of serialized records in memory.  Source: /repo/tkrzw_dbm_tiny.cc.
    [None] is undefined behaviour: use of a null or freed pointer, access outside a block, an
    endless chain, or a record whose size does not fit into int32_t.  A freed address is not
    used again.  The views a processor returns do not point into the record it was given.  The
    update logger and the locks are not modelled here; the files are modelled in FlatModel.v. *)
From Coq Require Import List NArith ZArith Bool.
Import ListNotations.
From Verif Require Import Bytes CodecModel DbmModel StatusModel.
Local Open Scope N_scope.

Notation "x <- a ;; b" := (match a with Some x => b | None => None end) (at level 60, a at level 50, right associativity).
Notation "' p <- a ;; b" := (match a with Some p => b | None => None end) (at level 60, p pattern, a at level 50, right associativity).

(** * Memory *)
Definition ptr := nat.
(** A block: the pointer at its head and the bytes behind it. *)
Definition blk : Type := option ptr * bytes.
Record heap := mkHeap { cell : ptr -> option blk; hnext : ptr }.
Definition updc (f : ptr -> option blk) (p : ptr) (b : option blk) : ptr -> option blk := fun q => if Nat.eqb q p then b else f q.
(** xmalloc *)
Definition h_alloc (h : heap) (b : blk) : heap * ptr := (mkHeap (updc (cell h) (hnext h) (Some b)) (S (hnext h)), hnext h).
(** xfree *)
Definition h_free (h : heap) (p : ptr) : option heap := _ <- cell h p ;; Some (mkHeap (updc (cell h) p None) (hnext h)).
Definition h_store (h : heap) (p : ptr) (b : blk) : option heap := _ <- cell h p ;; Some (mkHeap (updc (cell h) p (Some b)) (hnext h)).
(** Bytes beyond the old size are arbitrary; here they are zero. *)
Definition resize (b : bytes) (n : N) : bytes := firstn (N.to_nat n) b ++ repeat 0 (N.to_nat n - length b).
(** xrealloc to a block with [n] bytes behind the pointer; [moved]: to another address. *)
Definition h_realloc (h : heap) (p : ptr) (n : N) (moved : bool) : option (heap * ptr) :=
  '(c, b) <- cell h p ;;
  if moved then let '(h1, q) := h_alloc h (c, resize b n) in h2 <- h_free h1 p ;; Some (h2, q)
  else h1 <- h_store h p (c, resize b n) ;; Some (h1, p).
(** memcpy of [d] to the offset [off] behind the pointer. *)
Definition put (b : bytes) (off : N) (d : bytes) : option bytes :=
  if off + blen d <=? blen b then Some (firstn (N.to_nat off) b ++ d ++ skipn (N.to_nat (off + blen d)) b) else None.
Definition h_put (h : heap) (p : ptr) (off : N) (d : bytes) : option heap :=
  '(c, b) <- cell h p ;; b' <- put b off d ;; h_store h p (c, b').
(** memcpy of a pointer to the head of the block. *)
Definition h_link (h : heap) (p : ptr) (c : option ptr) : option heap := '(_, b) <- cell h p ;; h_store h p (c, b).

(** * TinyRecord *)
(** The whole size, an int32_t, tkrzw_dbm_tiny.cc:122-123. *)
Definition tr_size (key_size value_size : N) : N := 8 + size_var key_size + key_size + size_var value_size + value_size.
Definition fits (ks vs : N) : bool := tr_size ks vs <? 2^31.
(** Serialize, tkrzw_dbm_tiny.cc:121-134. *)
Definition ser (key value : bytes) : bytes := write_var (blen key) ++ key ++ write_var (blen value) ++ value.
Definition tr_serialize (h : heap) (child : option ptr) (key value : bytes) : option (heap * ptr) :=
  if fits (blen key) (blen value) then Some (h_alloc h (child, ser key value)) else None.
(** Deserialize, tkrzw_dbm_tiny.cc:192-204: child, key, value. *)
Definition tr_deserialize (h : heap) (p : ptr) : option (option ptr * bytes * bytes) :=
  '(c, b) <- cell h p ;;
  '(kn, b1) <- get_var b ;;
  if blen b1 <? kn then None else
  '(vn, b2) <- get_var (skipn (N.to_nat kn) b1) ;;
  if blen b2 <? vn then None else
  Some (c, firstn (N.to_nat kn) b1, firstn (N.to_nat vn) b2).
(** Reserialize, tkrzw_dbm_tiny.cc:136-154. *)
Definition tr_reserialize (h : heap) (p : ptr) (child : option ptr) (key value : bytes) (old_value_size : N) (moved : bool) : option (heap * ptr) :=
  if negb (fits (blen key) (blen value)) then None
  else if size_var old_value_size <? size_var (blen value) then
    '(h1, q) <- tr_serialize h child key value ;; h2 <- h_free h1 p ;; Some (h2, q)
  else
    '(h1, q) <- (if old_value_size <? blen value then h_realloc h p (tr_size (blen key) (blen value) - 8) moved else Some (h, p)) ;;
    h2 <- h_put h1 q (size_var (blen key) + blen key) (write_var (blen value) ++ value) ;;
    Some (h2, q).
(** ReserializeAppend, tkrzw_dbm_tiny.cc:156-190. *)
Definition tr_append (h : heap) (p : ptr) (child : option ptr) (key value cat delim : bytes) (moved : bool) : option (heap * ptr) :=
  let new_size := blen value + blen delim + blen cat in
  if negb (fits (blen key) new_size) then None
  else if size_var (blen value) <? size_var new_size then
    let '(h1, q) := h_alloc h (child, write_var (blen key) ++ key ++ write_var new_size ++ value ++ delim ++ cat) in
    h2 <- h_free h1 p ;; Some (h2, q)
  else
    '(h1, q) <- h_realloc h p (tr_size (blen key) new_size - 8) moved ;;
    let off := size_var (blen key) + blen key in
    h2 <- h_put h1 q off (write_var new_size) ;;
    h3 <- h_put h2 q (off + size_var new_size + blen value) delim ;;
    h4 <- h_put h3 q (off + size_var new_size + blen value + blen delim) cat ;;
    Some (h4, q).

Section Tiny.
  (** PrimaryHash, by which record_mutex_ gives the bucket index, tkrzw_dbm_tiny.cc:211. *)
  Variable hash : bytes -> N -> N.
  (** GetHashBucketSize *)
  Variable bucket_size : N -> N.

  (** Memory, buckets_, num_buckets_, num_records_, tkrzw_dbm_tiny.cc:88-103. *)
  Record tiny := mkTiny { t_h : heap; t_b : N -> option ptr; t_nb : N; t_num : Z }.
  Definition updb (f : N -> option ptr) (i : N) (p : option ptr) : N -> option ptr := fun j => if j =? i then p else f j.
  (** The constructor, tkrzw_dbm_tiny.cc:206-218 (num_buckets positive; otherwise the default 1048583), and
      InitializeBuckets, 524-527. *)
  Definition max_buckets : N := 1099511627689.
  Definition t_new (num_buckets : N) : tiny :=
    mkTiny (mkHeap (fun _ => None) 0%nat) (fun _ => None)
      (if 0 <? num_buckets then bucket_size (N.min num_buckets max_buckets) else 1048583) 0.

  Definition fuel_of (h : heap) : nat := S (hnext h).
  (** The loops of ProcessImpl and AppendImpl: Some (ptr, parent, child, value) if found. *)
  Fixpoint walk (fuel : nat) (h : heap) (key : bytes) (parent p : option ptr) : option (option (ptr * option ptr * option ptr * bytes)) :=
    match fuel with
    | O => None
    | S fu =>
        match p with
        | None => Some None
        | Some q =>
            '(c, k, v) <- tr_deserialize h q ;;
            if beqb key k then Some (Some (q, parent, c, v)) else walk fu h key (Some q) c
        end
    end.
  (** "if (parent == nullptr) buckets_[bucket_index] = np; else memcpy(parent, &np, sizeof(np))" *)
  Definition relink (h : heap) (b : N -> option ptr) (i : N) (parent np : option ptr) : option (heap * (N -> option ptr)) :=
    match parent with
    | None => Some (h, updb b i np)
    | Some q => h1 <- h_link h q np ;; Some (h1, b)
    end.
  (** A new record at the top of the chain, tkrzw_dbm_tiny.cc:674-680. *)
  Definition push (t : tiny) (i : N) (key value : bytes) : option tiny :=
    '(h1, q) <- tr_serialize (t_h t) (t_b t i) key value ;;
    Some (mkTiny h1 (updb (t_b t) i (Some q)) (t_nb t) (t_num t + 1)).
  (** ProcessImpl, tkrzw_dbm_tiny.cc:628-682. *)
  Definition t_impl {S} (t : tiny) (key : bytes) (i : N) (pr : proc S) (writable moved : bool) (s : S) : option (tiny * S) :=
    w <- walk (fuel_of (t_h t)) (t_h t) key None (t_b t i) ;;
    match w with
    | Some (q, parent, c, v) =>
        let '(a, s') := on_full pr key v s in
        match (if writable then a else ANoop) with
        | ANoop => Some (t, s')
        | ARemove =>
            h1 <- h_free (t_h t) q ;;
            '(h2, b2) <- relink h1 (t_b t) i parent c ;;
            Some (mkTiny h2 b2 (t_nb t) (t_num t - 1), s')
        | ASet value =>
            '(h1, q') <- tr_reserialize (t_h t) q c key value (blen v) moved ;;
            if Nat.eqb q' q then Some (mkTiny h1 (t_b t) (t_nb t) (t_num t), s')
            else '(h2, b2) <- relink h1 (t_b t) i parent (Some q') ;; Some (mkTiny h2 b2 (t_nb t) (t_num t), s')
        end
    | None =>
        let '(a, s') := on_empty pr key s in
        match (if writable then a else ANoop) with
        | ASet value => t1 <- push t i key value ;; Some (t1, s')
        | _ => Some (t, s')
        end
    end.
  (** Process, tkrzw_dbm_tiny.cc:273-279. *)
  Definition t_process {S} (t : tiny) (key : bytes) (pr : proc S) (writable moved : bool) (s : S) : option (tiny * S) :=
    t_impl t key (hash key (t_nb t)) pr writable moved s.
  (** Append and AppendImpl, tkrzw_dbm_tiny.cc:281-287, 684-724. *)
  Definition t_append (t : tiny) (key value delim : bytes) (moved : bool) : option tiny :=
    let i := hash key (t_nb t) in
    w <- walk (fuel_of (t_h t)) (t_h t) key None (t_b t i) ;;
    match w with
    | Some (q, parent, c, v) =>
        '(h1, q') <- tr_append (t_h t) q c key v value delim moved ;;
        if Nat.eqb q' q then Some (mkTiny h1 (t_b t) (t_nb t) (t_num t))
        else '(h2, b2) <- relink h1 (t_b t) i parent (Some q') ;; Some (mkTiny h2 b2 (t_nb t) (t_num t))
    | None => push t i key value
    end.
  (** ProcessMulti, tkrzw_dbm_tiny.cc:289-306. *)
  Fixpoint t_multi {S} (t : tiny) (l : list (bytes * proc S)) (writable moved : bool) (s : S) : option (tiny * S) :=
    match l with
    | [] => Some (t, s)
    | (k, p) :: l' => '(t1, s1) <- t_process t k p writable moved s ;; t_multi t1 l' writable moved s1
    end.
  (** ProcessFirst, tkrzw_dbm_tiny.cc:308-338: whether there was a record. *)
  Fixpoint first_from {S} (fuel : nat) (t : tiny) (i : N) (pr : proc S) (writable moved : bool) (s : S) : option (bool * tiny * S) :=
    match fuel with
    | O => Some (false, t, s)
    | S fu =>
        match t_b t i with
        | None => first_from fu t (i + 1) pr writable moved s
        | Some q =>
            '(_, k, v) <- tr_deserialize (t_h t) q ;;
            if writable then '(t1, s1) <- t_impl t k i pr true moved s ;; Some (true, t1, s1)
            else Some (true, t, snd (on_full pr k v s))
        end
    end.
  Definition t_first {S} (t : tiny) (pr : proc S) (writable moved : bool) (s : S) : option (bool * tiny * S) :=
    first_from (N.to_nat (t_nb t)) t 0 pr writable moved s.
  (** ProcessEach, tkrzw_dbm_tiny.cc:340-377 (without the two calls of ProcessEmpty). *)
  Fixpoint each_chain {S} (fuel : nat) (t : tiny) (i : N) (p : option ptr) (pr : proc S) (writable moved : bool) (s : S) : option (tiny * S) :=
    match fuel with
    | O => None
    | S fu =>
        match p with
        | None => Some (t, s)
        | Some q =>
            '(c, k, v) <- tr_deserialize (t_h t) q ;;
            if writable then '(t1, s1) <- t_impl t k i pr true moved s ;; each_chain fu t1 i c pr writable moved s1
            else each_chain fu t i c pr writable moved (snd (on_full pr k v s))
        end
    end.
  Fixpoint each_from {S} (n : nat) (t : tiny) (i : N) (pr : proc S) (writable moved : bool) (s : S) : option (tiny * S) :=
    match n with
    | O => Some (t, s)
    | S m => '(t1, s1) <- each_chain (fuel_of (t_h t)) t i (t_b t i) pr writable moved s ;; each_from m t1 (i + 1) pr writable moved s1
    end.
  Definition t_each {S} (t : tiny) (pr : proc S) (writable moved : bool) (s : S) : option (tiny * S) :=
    each_from (N.to_nat (t_nb t)) t 0 pr writable moved s.

  (** ReleaseAllRecords, tkrzw_dbm_tiny.cc:529-539. *)
  Fixpoint free_chain (fuel : nat) (h : heap) (p : option ptr) : option heap :=
    match fuel with
    | O => None
    | S fu => match p with None => Some h | Some q => '(c, _) <- cell h q ;; h1 <- h_free h q ;; free_chain fu h1 c end
    end.
  Fixpoint free_from (n : nat) (h : heap) (b : N -> option ptr) (i : N) : option heap :=
    match n with O => Some h | S m => h1 <- free_chain (fuel_of h) h (b i) ;; free_from m h1 b (i + 1) end.
  (** Clear, tkrzw_dbm_tiny.cc:412-423. *)
  Definition t_clear (t : tiny) : option tiny :=
    h1 <- free_from (N.to_nat (t_nb t)) (t_h t) (t_b t) 0 ;; Some (mkTiny h1 (fun _ => None) (t_nb t) 0).
  (** Rebuild, tkrzw_dbm_tiny.cc:425-451. *)
  Fixpoint move_chain (fuel : nat) (h : heap) (nb : N) (b : N -> option ptr) (p : option ptr) : option (heap * (N -> option ptr)) :=
    match fuel with
    | O => None
    | S fu =>
        match p with
        | None => Some (h, b)
        | Some q =>
            '(c, k, _) <- tr_deserialize h q ;;
            h1 <- h_link h q (b (hash k nb)) ;;
            move_chain fu h1 nb (updb b (hash k nb) (Some q)) c
        end
    end.
  Fixpoint move_from (n : nat) (h : heap) (old : N -> option ptr) (nb : N) (b : N -> option ptr) (i : N) : option (heap * (N -> option ptr)) :=
    match n with
    | O => Some (h, b)
    | S m => '(h1, b1) <- move_chain (fuel_of h) h nb b (old i) ;; move_from m h1 old nb b1 (i + 1)
    end.
  Definition t_rebuild (t : tiny) (num_buckets : N) : option tiny :=
    let n := if 0 <? num_buckets then num_buckets else Z.to_N (t_num t) * 2 + 1 in
    let nb := bucket_size (N.min n max_buckets) in
    '(h1, b1) <- move_from (N.to_nat (t_nb t)) (t_h t) (t_b t) nb (fun _ => None) 0 ;;
    Some (mkTiny h1 b1 nb (t_num t)).

  (** * Iterators *)
  (** bucket_index_ (None: -1) and keys_, tkrzw_dbm_tiny.cc:105-119. *)
  Record titer := mkIter { it_b : option N; it_keys : list bytes }.
  (** The inner loop of ReadNextBucketRecords. *)
  Fixpoint chain_keys (fuel : nat) (h : heap) (p : option ptr) : option (list bytes) :=
    match fuel with
    | O => None
    | S fu =>
        match p with
        | None => Some []
        | Some q => '(c, k, _) <- tr_deserialize h q ;; l <- chain_keys fu h c ;; Some (k :: l)
        end
    end.
  (** ReadNextBucketRecords, tkrzw_dbm_tiny.cc:726-753; the compare-exchange succeeds, as nobody else uses the iterator. *)
  Fixpoint read_next (fuel : nat) (t : tiny) (it : titer) : option (code * titer) :=
    match fuel with
    | O => None
    | S fu =>
        match it_b it with
        | None => Some (NOT_FOUND_ERROR, mkIter None (it_keys it))
        | Some i =>
            if t_nb t <=? i then Some (NOT_FOUND_ERROR, mkIter None (it_keys it)) else
            l <- chain_keys (fuel_of (t_h t)) (t_h t) (t_b t i) ;;
            match it_keys it ++ l with
            | [] => read_next fu t (mkIter (Some (i + 1)) [])
            | ks => Some (SUCCESS, mkIter (Some (i + 1)) ks)
            end
        end
    end.
  Definition it_fuel (t : tiny) : nat := S (N.to_nat (t_nb t)).
  (** ReadKeys, tkrzw_dbm_tiny.cc:842-857. *)
  Definition read_keys (t : tiny) (it : titer) : option (code * titer) :=
    match it_b it with
    | None => Some (NOT_FOUND_ERROR, it)
    | Some _ =>
        match it_keys it with
        | [] => '(c, it1) <- read_next (it_fuel t) t it ;;
                match c with SUCCESS => Some (match it_keys it1 with [] => NOT_FOUND_ERROR | _ => SUCCESS end, it1) | _ => Some (c, it1) end
        | _ => Some (SUCCESS, it)
        end
    end.
  (** First, tkrzw_dbm_tiny.cc:768-773. *)
  Definition it_first : titer := mkIter (Some 0) [].
  (** "keys_.erase(keys_.begin(), it)" with std::find. *)
  Fixpoint drop_until (k : bytes) (l : list bytes) : option (list bytes) :=
    match l with [] => None | x :: r => if beqb x k then Some l else drop_until k r end.
  (** Jump, tkrzw_dbm_tiny.cc:775-796. *)
  Definition it_jump (t : tiny) (key : bytes) : option (code * titer) :=
    '(c, it) <- read_next (it_fuel t) t (mkIter (Some (hash key (t_nb t))) []) ;;
    match c with
    | SUCCESS => match drop_until key (it_keys it) with
                 | None => Some (NOT_FOUND_ERROR, mkIter None [])
                 | Some l => Some (SUCCESS, mkIter (it_b it) l)
                 end
    | _ => Some (c, it)
    end.
  (** Next, tkrzw_dbm_tiny.cc:798-806. *)
  Definition it_next (t : tiny) (it : titer) : option (code * titer) :=
    '(c, it1) <- read_keys t it ;;
    match c with SUCCESS => Some (SUCCESS, mkIter (it_b it1) (tl (it_keys it1))) | _ => Some (c, it1) end.
  (** ProcWrapper, tkrzw_dbm_tiny.cc:816-829: what the processor returned, if it was given a record. *)
  Definition wrapped {S} (pr : proc S) : proc (option action * S) :=
    mkProc (fun k v '(_, s) => let '(a, s') := on_full pr k v s in (a, (Some a, s'))) (fun k '(_, s) => (ANoop, (None, s))).
  (** Process, tkrzw_dbm_tiny.cc:808-840. *)
  Definition it_process {S} (t : tiny) (it : titer) (pr : proc S) (writable moved : bool) (s : S) : option (code * tiny * titer * S) :=
    '(c, it1) <- read_keys t it ;;
    match c, it_keys it1 with
    | SUCCESS, k :: r =>
        '(t1, (o, s1)) <- t_process t k (wrapped pr) writable moved (None, s) ;;
        match o with
        | None => Some (NOT_FOUND_ERROR, t1, it1, s1)
        | Some ARemove => Some (SUCCESS, t1, mkIter (it_b it1) r, s1)
        | Some _ => Some (SUCCESS, t1, it1, s1)
        end
    | SUCCESS, [] => None
    | _, _ => Some (c, t, it1, s)
    end.
End Tiny.
