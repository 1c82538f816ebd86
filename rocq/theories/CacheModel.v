(** CacheDBM: the LRU slots with their pointers.  Source: /repo/tkrzw_dbm_cache.cc.
    A serialized record is a heap node (key and value, child, prev, next) of LinkedModel.v;
    [None] is undefined behaviour (use of a null or freed pointer) or an endless chain.  Each slot
    has a heap of its own, since all its records are reached only from it.  Keys and values are
    taken to be shorter than 2^31 (their sizes are int32_t).  The update logger, the import and
    export of files and the locks are not modelled here. *)
From Coq Require Import List NArith ZArith Bool.
Import ListNotations.
From Verif Require Import Bytes CodecModel DbmModel LinkedModel.
Local Open Scope N_scope.

Section Cache.
  (** PrimaryHash(key, UINT64MAX). *)
  Variable hash : bytes -> N.
  (** GetHashBucketSize(std::min<int64_t>(cap_rec_num * MAX_LOAD_FACTOR, INT32MAX)). *)
  Variable buckets : N -> N.
  Definition hash8 (k : bytes) : N := hash k / 2^8.
  Notation heap := (heap bytes bytes).

  (** CacheSlot, tkrzw_dbm_cache.cc:54-86: memory; buckets_, num_buckets_, first_, last_ and
      num_records_; cap_rec_num_, cap_mem_size_ and eff_data_size_. *)
  Record slot := mkSlot { cs_h : heap; cs_m : lmap; cs_cap : N; cs_mcap : Z; cs_eff : Z }.
  (** Init, tkrzw_dbm_cache.cc:259-269. *)
  Definition slot_init (h : heap) (cap : N) (mcap : Z) : slot := mkSlot h (mkM (fun _ => None) (buckets cap) None None 0) cap mcap 0.
  (** CleanUp, tkrzw_dbm_cache.cc:271-287 (the slot is initialised afterwards). *)
  Fixpoint free_fwd (fuel : nat) (h : heap) (p : option ptr) : option heap :=
    match fuel with
    | O => None
    | S fu => match p with None => Some h | Some q => nx <- get_next h q ;; h' <- free h q ;; free_fwd fu h' nx end
    end.
  Definition slot_clean (s : slot) : option heap := free_fwd (S (hfresh (cs_h s))) (cs_h s) (mfirst (cs_m s)).
  (** GetMemoryUsageImpl, tkrzw_dbm_cache.cc:495-501. *)
  Definition memory_usage (nb num : N) (eff : Z) : Z := (Z.of_N nb * 8 + Z.of_N num * ((8 * 3 + 2) + 8) + eff)%Z.
  Definition slot_usage (s : slot) : Z := memory_usage (mnb (cs_m s)) (mnum (cs_m s)) (cs_eff s).

  (** CacheRecord::Serialize, tkrzw_dbm_cache.cc:160-178: a new node. *)
  Definition serialize (h : heap) (kv : bytes * bytes) (child prev next : option ptr) : ptr * heap :=
    (hfresh h, mkH (upd (hk h) (hfresh h) (Some kv)) (upd (hc h) (hfresh h) child) (upd (hp h) (hfresh h) prev) (upd (hn h) (hfresh h) next) (S (hfresh h))).
  (** CacheRecord::Reserialize, tkrzw_dbm_cache.cc:180-198.  [moved]: whether xrealloc gives another
      address, to which it copies the pointers as they are in memory. *)
  Definition reserialize (h : heap) (p : ptr) (k value : bytes) (child prev next : option ptr) (old_value_size : N) (moved : bool) : option (ptr * heap) :=
    if size_var old_value_size <? size_var (blen value) then
      let '(q, h1) := serialize h (k, value) child prev next in h2 <- free h1 p ;; Some (q, h2)
    else if old_value_size <? blen value then
      if moved then
        c <- get_child h p ;; pv <- get_prev h p ;; nx <- get_next h p ;;
        let '(q, h1) := serialize h (k, value) c pv nx in h2 <- free h1 p ;; Some (q, h2)
      else h1 <- set_val h p value ;; Some (p, h1)
    else h1 <- set_val h p value ;; Some (p, h1).

  (** Moving a hit record to the end of the list, tkrzw_dbm_cache.cc:315-332: rec.prev and rec.next afterwards. *)
  Definition touch (h : heap) (m : lmap) (p : ptr) (pv nx : option ptr) : option (heap * lmap * option ptr * option ptr) :=
    if peq (mlast m) (Some p) then Some (h, m, pv, nx) else
    h1 <- set_next_if h pv nx ;;
    h2 <- set_prev_if h1 nx pv ;;
    let m1 := if peq (mfirst m) (Some p) then with_first m nx else m in
    h3 <- set_next_of h2 (mlast m1) (Some p) ;;
    h4 <- set_prev h3 p (mlast m1) ;;
    h5 <- set_next h4 p None ;;
    Some (h5, with_last m1 (Some p), mlast m1, None).
  (** The loop of RemoveLRU, tkrzw_dbm_cache.cc:568-590: the record whose address is first_. *)
  Fixpoint find_ptr (fuel : nat) (h : heap) (target : ptr) (cur parent : option ptr) : option (option ptr * option ptr) :=
    match fuel with
    | O => None
    | S fu =>
        match cur with
        | None => Some (None, parent)
        | Some p => c <- get_child h p ;; if Nat.eqb p target then Some (Some p, parent) else find_ptr fu h target c (Some p)
        end
    end.
  (** RemoveLRU, tkrzw_dbm_cache.cc:558-591. *)
  Definition remove_lru (s : slot) : option slot :=
    let h := cs_h s in let m := cs_m s in
    f <- mfirst m ;;
    kv <- get_kv h f ;;
    i <- bucket_of hash8 m (fst kv) ;;
    w <- find_ptr (S (hfresh h)) h f (mb m i) None ;;
    match fst w with
    | None => Some s
    | Some p =>
        rec <- get_kv h p ;; c <- get_child h p ;; nx <- get_next h p ;;
        h1 <- free h p ;;
        hm <- set_entry h1 m i (snd w) c ;;
        h2 <- set_prev_if (fst hm) nx None ;;
        let m1 := with_first (snd hm) nx in
        let m2 := if peq (mlast m1) (Some p) then with_last m1 None else m1 in
        Some (mkSlot h2 (with_num m2 (mnum m2 - 1)) (cs_cap s) (cs_mcap s) (cs_eff s - Z.of_N (blen (fst rec) + blen (snd rec))))
    end.
  (** ProcessImpl, tkrzw_dbm_cache.cc:303-412; [moved]: as in Reserialize. *)
  Definition slot_process {S} (s : slot) (key : bytes) (p : proc S) (writable moved : bool) (st : S) : option (slot * S) :=
    let h := cs_h s in let m := cs_m s in
    i <- bucket_of hash8 m key ;;
    w <- lm_walk beqb h m i key ;;
    match fst w with
    | Some ptr =>
        kv <- get_kv h ptr ;; child <- get_child h ptr ;; pv0 <- get_prev h ptr ;; nx0 <- get_next h ptr ;;
        t <- touch h m ptr pv0 nx0 ;;
        let '(h1, m1, pv, nx) := t in
        let '(a, st') := on_full p key (snd kv) st in
        match (if writable then a else ANoop) with
        | ANoop => Some (mkSlot h1 m1 (cs_cap s) (cs_mcap s) (cs_eff s), st')
        | ARemove =>
            h2 <- free h1 ptr ;;
            hm <- set_entry h2 m1 i (snd w) child ;;
            match pv with
            | None => Some (mkSlot (fst hm) (with_num (with_last (with_first (snd hm) None) None) (mnum (snd hm) - 1)) (cs_cap s) (cs_mcap s)
                (cs_eff s - Z.of_N (blen (fst kv) + blen (snd kv))), st')
            | Some q =>
                h3 <- set_next (fst hm) q None ;;
                Some (mkSlot h3 (with_num (with_last (snd hm) pv) (mnum (snd hm) - 1)) (cs_cap s) (cs_mcap s) (cs_eff s - Z.of_N (blen (fst kv) + blen (snd kv))), st')
            end
        | ASet value =>
            r <- reserialize h1 ptr (fst kv) value child pv nx (blen (snd kv)) moved ;;
            let '(q, h2) := r in
            let eff := (cs_eff s + (Z.of_N (blen value) - Z.of_N (blen (snd kv))))%Z in
            if Nat.eqb q ptr then Some (mkSlot h2 m1 (cs_cap s) (cs_mcap s) eff, st')
            else
              hm <- set_entry h2 m1 i (snd w) (Some q) ;;
              h3 <- set_next_if (fst hm) pv (Some q) ;;
              let m2 := if peq (mfirst (snd hm)) (Some ptr) then with_first (snd hm) (Some q) else snd hm in
              Some (mkSlot h3 (with_last m2 (Some q)) (cs_cap s) (cs_mcap s) eff, st')
        end
    | None =>
        let '(a, st') := on_empty p key st in
        match (if writable then a else ANoop) with
        | ASet value =>
            let '(q, h1) := serialize h (key, value) (mb m i) (mlast m) None in
            let m1 := with_bucket m i (Some q) in
            let m2 := match mfirst m1 with None => with_first m1 (Some q) | Some _ => m1 end in
            h2 <- set_next_if h1 (mlast m2) (Some q) ;;
            let m3 := with_last m2 (Some q) in
            let s1 := mkSlot h2 (with_num m3 (mnum m3 + 1)) (cs_cap s) (cs_mcap s) (cs_eff s + Z.of_N (blen key + blen value)) in
            if (cs_cap s <? mnum (cs_m s1)) || (cs_mcap s <? slot_usage s1)%Z then s2 <- remove_lru s1 ;; Some (s2, st') else Some (s1, st')
        | _ => Some (s, st')
        end
    end.
  (** The records of a slot in order, as seen by the loops over GetNext: ProcessFirst (tkrzw_dbm_cache.cc:414-446),
      ProcessEach (448-478), ExportRecords (539-556) and GetKeys (593-605). *)
  Definition slot_items (s : slot) : option (list (bytes * bytes)) := iterate (S (hfresh (cs_h s))) (cs_h s) (mfirst (cs_m s)).
  (** ProcessFirst, tkrzw_dbm_cache.cc:414-446: whether there was a record.  The processor returns to no effect if not writable. *)
  Definition slot_first {S} (s : slot) (p : proc S) (writable moved : bool) (st : S) : option (bool * slot * S) :=
    match mfirst (cs_m s) with
    | None => Some (false, s, st)
    | Some f => kv <- get_kv (cs_h s) f ;;
        if writable then r <- slot_process s (fst kv) p true moved st ;; Some (true, fst r, snd r)
        else Some (true, s, snd (on_full p (fst kv) (snd kv) st))
    end.
  (** ProcessEach, tkrzw_dbm_cache.cc:448-478. *)
  Fixpoint slot_each_keys {S} (s : slot) (keys : list bytes) (p : proc S) (moved : bytes -> bool) (st : S) : option (slot * S) :=
    match keys with
    | [] => Some (s, st)
    | k :: ks => r <- slot_process s k p true (moved k) st ;; slot_each_keys (fst r) ks p moved (snd r)
    end.
  Definition slot_each {S} (s : slot) (p : proc S) (writable : bool) (moved : bytes -> bool) (st : S) : option (slot * S) :=
    l <- slot_items s ;;
    if writable then slot_each_keys s (map fst l) p moved st
    else Some (s, fold_left (fun x kv => snd (on_full p (fst kv) (snd kv) x)) l st).
  (** Rebuild, tkrzw_dbm_cache.cc:503-537: the loop. *)
  Fixpoint rebuild_loop (fuel : nat) (h : heap) (m : lmap) (cap : N) (mcap eff : Z) (p : option ptr) : option (heap * lmap * Z) :=
    match fuel with
    | O => None
    | S fu =>
        match p with
        | None => Some (h, m, eff)
        | Some q =>
            nx <- get_next h q ;;
            if (mnum m <? cap) && (memory_usage (mnb m) (mnum m) eff <? mcap)%Z then
              kv <- get_kv h q ;; i <- bucket_of hash8 m (fst kv) ;;
              h1 <- set_child h q (mb m i) ;;
              let m1 := with_last (with_num (with_bucket m i (Some q)) (mnum m + 1)) (Some q) in
              rebuild_loop fu h1 m1 cap mcap (eff + Z.of_N (blen (fst kv) + blen (snd kv))) nx
            else h1 <- free h q ;; rebuild_loop fu h1 m cap mcap eff nx
        end
    end.
  Definition slot_rebuild (s : slot) (cap : N) (mcap : Z) : option slot :=
    r <- rebuild_loop (S (hfresh (cs_h s))) (cs_h s) (mkM (fun _ => None) (buckets cap) (mfirst (cs_m s)) None 0) cap mcap 0 (mfirst (cs_m s)) ;;
    let '(h, m, eff) := r in
    match mlast m with
    | None => Some (mkSlot h (with_first m None) cap mcap eff)
    | Some q => h1 <- set_next h q None ;; Some (mkSlot h1 m cap mcap eff)
    end.

  (** CacheDBMImpl, tkrzw_dbm_cache.cc:88-140: slots_, cap_rec_num_ and cap_mem_size_. *)
  Definition NUM_CACHE_SLOTS : N := 32.
  Record cache := mkCache { c_slots : N -> slot; c_cap : N; c_mcap : Z }.
  Definition with_slot (c : cache) (i : N) (s : slot) : cache := mkCache (updN (c_slots c) i s) (c_cap c) (c_mcap c).
  (** (hash & 0xff) % NUM_CACHE_SLOTS, tkrzw_dbm_cache.cc:674-675. *)
  Definition slot_of (k : bytes) : N := (hash k mod 2^8) mod NUM_CACHE_SLOTS.
  Definition slot_cap (cap : N) : N := cap / NUM_CACHE_SLOTS + 1.
  Definition slot_mcap (mcap : Z) : Z := (mcap / Z.of_N NUM_CACHE_SLOTS + 1)%Z.
  Definition DEFAULT_CAP_REC_NUM : N := 1000000.
  (** The constructor and InitAllSlots, tkrzw_dbm_cache.cc:607-614 and 892-898. *)
  Definition cache_new (cap_rec_num : N) (cap_mem_size : Z) : cache :=
    let cap := if 0 <? cap_rec_num then cap_rec_num else DEFAULT_CAP_REC_NUM in
    let mcap := if (0 <? cap_mem_size)%Z then cap_mem_size else (2^63 - 1)%Z in
    mkCache (fun _ => slot_init heap0 (slot_cap cap) (slot_mcap mcap)) cap mcap.
  (** Process, tkrzw_dbm_cache.cc:672-679. *)
  Definition cache_process {S} (c : cache) (key : bytes) (p : proc S) (writable moved : bool) (st : S) : option (cache * S) :=
    r <- slot_process (c_slots c (slot_of key)) key p writable moved st ;; Some (with_slot c (slot_of key) (fst r), snd r).
  (** ProcessMulti, tkrzw_dbm_cache.cc:681-705. *)
  Fixpoint cache_multi {S} (c : cache) (l : list (bytes * proc S)) (writable : bool) (moved : bytes -> bool) (st : S) : option (cache * S) :=
    match l with
    | [] => Some (c, st)
    | (k, p) :: l' => r <- cache_process c k p writable (moved k) st ;; cache_multi (fst r) l' writable moved (snd r)
    end.
  (** ProcessFirst, tkrzw_dbm_cache.cc:707-715; false: NOT_FOUND_ERROR.  [n] slots from [i] on. *)
  Fixpoint cache_first_from {S} (n : nat) (i : N) (c : cache) (p : proc S) (writable moved : bool) (st : S) : option (bool * cache * S) :=
    match n with
    | O => Some (false, c, st)
    | Datatypes.S n' =>
        r <- slot_first (c_slots c i) p writable moved st ;;
        if fst (fst r) then Some (true, with_slot c i (snd (fst r)), snd r) else cache_first_from n' (i + 1) c p writable moved st
    end.
  Definition cache_first {S} (c : cache) (p : proc S) (writable moved : bool) (st : S) := cache_first_from (N.to_nat NUM_CACHE_SLOTS) 0 c p writable moved st.
  (** ProcessEach, tkrzw_dbm_cache.cc:717-725: with the calls of ProcessEmpty before and after. *)
  Fixpoint cache_each_from {S} (n : nat) (i : N) (c : cache) (p : proc S) (writable : bool) (moved : bytes -> bool) (st : S) : option (cache * S) :=
    match n with
    | O => Some (c, st)
    | Datatypes.S n' => r <- slot_each (c_slots c i) p writable moved st ;; cache_each_from n' (i + 1) (with_slot c i (fst r)) p writable moved (snd r)
    end.
  Definition cache_each {S} (c : cache) (p : proc S) (writable : bool) (moved : bytes -> bool) (noop : bytes) (st : S) : option (cache * S) :=
    r <- cache_each_from (N.to_nat NUM_CACHE_SLOTS) 0 c p writable moved (snd (on_empty p noop st)) ;; Some (fst r, snd (on_empty p noop (snd r))).
  (** Count, tkrzw_dbm_cache.cc:727-734; GetEffectiveDataSize, 868-875. *)
  Fixpoint sum_from {A} (add : A -> A -> A) (zero : A) (f : N -> A) (n : nat) (i : N) : A :=
    match n with O => zero | Datatypes.S n' => add (f i) (sum_from add zero f n' (i + 1)) end.
  Definition cache_count (c : cache) : N := sum_from N.add 0 (fun i => mnum (cs_m (c_slots c i))) (N.to_nat NUM_CACHE_SLOTS) 0.
  Definition cache_eff (c : cache) : Z := sum_from Z.add 0%Z (fun i => cs_eff (c_slots c i)) (N.to_nat NUM_CACHE_SLOTS) 0.
  (** Applying a function to every slot. *)
  Fixpoint all_slots (f : slot -> option slot) (n : nat) (i : N) (c : cache) : option cache :=
    match n with O => Some c | Datatypes.S n' => s <- f (c_slots c i) ;; all_slots f n' (i + 1) (with_slot c i s) end.
  (** Clear, tkrzw_dbm_cache.cc:768-777. *)
  Definition cache_clear (c : cache) : option cache :=
    all_slots (fun s => h <- slot_clean s ;; Some (slot_init h (slot_cap (c_cap c)) (slot_mcap (c_mcap c)))) (N.to_nat NUM_CACHE_SLOTS) 0 c.
  (** Rebuild, tkrzw_dbm_cache.cc:779-794. *)
  Definition cache_rebuild (c : cache) (cap_rec_num : N) (cap_mem_size : Z) : option cache :=
    let cap := if 0 <? cap_rec_num then cap_rec_num else c_cap c in
    let mcap := if (0 <? cap_mem_size)%Z then cap_mem_size else c_mcap c in
    all_slots (fun s => slot_rebuild s (slot_cap cap) (slot_mcap mcap)) (N.to_nat NUM_CACHE_SLOTS) 0 (mkCache (c_slots c) cap mcap).
  (** All records slot by slot: the keys that ReadNextBucketRecords reads, tkrzw_dbm_cache.cc:1000-1016, with their values. *)
  Fixpoint cache_items_from (n : nat) (i : N) (c : cache) : option (list (bytes * bytes)) :=
    match n with O => Some [] | Datatypes.S n' => a <- slot_items (c_slots c i) ;; b <- cache_items_from n' (i + 1) c ;; Some (a ++ b) end.
  Definition cache_items (c : cache) : option (list (bytes * bytes)) := cache_items_from (N.to_nat NUM_CACHE_SLOTS) 0 c.
End Cache.
