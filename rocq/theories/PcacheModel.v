(** The page cache of the positional files.
    Source: /repo/tkrzw_file_util.h:307-450 and /repo/tkrzw_file_util.cc:711-1160 (PageCache), with the callbacks
    that tkrzw_file_pos.cc:214-221 gives to it.
    Offsets and sizes are natural numbers: int64_t overflow is not covered.  The mutexes are left out: one call runs at a
    time.  Allocation and writing to the file do not fail; reading past the end of the file does. *)
From Coq Require Import List NArith Bool Arith.
Import ListNotations.
From Verif Require Import Bytes StatusModel.
Local Open Scope nat_scope.

(** PReadSequence, tkrzw_sys_util_posix.h:39-57: INFEASIBLE_ERROR (here None) when the file ends before the region does. *)
Definition pread (f : bytes) (off size : nat) : option bytes :=
  if (size =? 0) || (off + size <=? length f) then Some (firstn size (skipn off f)) else None.
(** PWriteSequence, tkrzw_sys_util_posix.h:67-82: a gap before the region is filled with zeros. *)
Definition pwrite (f : bytes) (off : nat) (data : bytes) : bytes :=
  match data with
  | [] => f
  | _ => firstn off (f ++ repeat 0%N (off - length f)) ++ data ++ skipn (off + length data) f
  end.

(** A buffer from xmallocaligned: a byte that has not been set is None. *)
Definition buffer := list (option N).
(** memcpy from a part of a buffer; None if it lies outside. *)
Definition slice (b : buffer) (pos size : nat) : option buffer :=
  if pos + size <=? length b then Some (firstn size (skipn pos b)) else None.
(** memcpy into a buffer; None if it lies outside. *)
Definition blit (b : buffer) (pos : nat) (data : buffer) : option buffer :=
  if pos + length data <=? length b then Some (firstn pos b ++ data ++ skipn (pos + length data) b) else None.
(** The bytes given to write_func_; None if some are not set. *)
Fixpoint all_set (b : buffer) : option bytes :=
  match b with
  | [] => Some []
  | Some c :: r => match all_set r with Some l => Some (c :: l) | None => None end
  | None :: _ => None
  end.

(** Page with the offset that is its key, tkrzw_file_util.h:399-406.  The member size is the length of the buffer. *)
Record page := mkPage { p_off : nat; p_buf : buffer; p_dirty : bool }.
Definition p_size (p : page) : nat := length (p_buf p).
(** PageRequest, tkrzw_file_util.h:385-394. *)
Record req := mkReq { r_off : nat; r_pre : nat; r_data : nat; r_copy : nat }.
(** The members, tkrzw_file_util.h:438-449, and the file behind.  Each of the 16 slots is the list of the records of
    its LinkedHashMap, from the front to the back (see LinkedProps.v). *)
Record pcache := mkPc { pc_slots : list (list page); pc_region : nat; pc_file : bytes }.

Section Pcache.
  (** page_size_ and slot_capacity_. *)
  Variables ps cap : nat.

  (** LinkedHashMap::Get(off) and Get(off, MOVE_LAST): the page and the other ones; with MOVE_LAST, the page is put after these. *)
  Definition get_page (l : list page) (off : nat) : option page := find (fun p => p_off p =? off) l.
  Definition del_page (l : list page) (off : nat) : list page := filter (fun p => negb (p_off p =? off)) l.

  (** The loop of MakePageRequest, tkrzw_file_util.cc:977-984; [fuel] bounds its number of turns. *)
  Fixpoint whole_requests (fuel region off size : nat) : list req :=
    match fuel with
    | O => []
    | S f =>
        if 0 <? size then
          let copy := Nat.min size ps in
          (* region_size_ - off may be negative in the code; the maximum with copy is then copy, as here *)
          let data := Nat.max copy (Nat.min (region - off) ps) in
          mkReq off 0 data copy :: whole_requests f region (off + copy) (size - copy)
        else []
    end.
  (** MakePageRequest, tkrzw_file_util.cc:962-986. *)
  Definition make_requests (region off size : nat) : list req :=
    let rem := off mod ps in
    if 0 <? rem then
      let copy := Nat.min size (ps - rem) in
      mkReq (off - rem) rem ps copy :: whole_requests size region (off + copy) (size - copy)
    else whole_requests size region off size.
  (** GetSlotIndex, tkrzw_file_util.cc:988-990. *)
  Definition slot_of (off : nat) : nat := (off / ps / 32) mod 16.
  Definition get_slot (s : pcache) (i : nat) : list page := nth i (pc_slots s) [].
  Fixpoint set_nth (i : nat) (l : list page) (ss : list (list page)) : list (list page) :=
    match ss, i with
    | [], _ => []
    | _ :: r, O => l :: r
    | x :: r, S j => x :: set_nth j l r
    end.
  Definition set_slot (s : pcache) (i : nat) (l : list page) (f : bytes) : pcache := mkPc (set_nth i l (pc_slots s)) (pc_region s) f.

  (** PreparePage, tkrzw_file_util.cc:1030-1074.  [batch] is what batch_ptr points to.  The result is the other pages of the
      slot and the page, which stands at the back; or the slot when read_func_ fails.  None is a copy out of bounds. *)
  Inductive prepared := PPage (rest : list page) (p : page) | PFail (l : list page).
  Definition fresh_buffer (f : bytes) (off size : nat) (load : bool) (batch : option buffer) : option (option buffer) :=
    match batch with
    | None => if load then match pread f off size with Some b => Some (Some (map Some b)) | None => Some None end
              else Some (Some (repeat None size))
    | Some b => match slice b 0 size with Some b' => Some (Some b') | None => None end
    end.
  Definition prepare (f : bytes) (l : list page) (off size : nat) (load : bool) (batch : option buffer) : option prepared :=
    match get_page l off with
    | None =>
        match fresh_buffer f off size load batch with
        | None => None
        | Some None => Some (PFail l)
        | Some (Some b) => Some (PPage l (mkPage off b false))
        end
    | Some p =>
        let rest := del_page l off in
        if p_size p <? size then
          match fresh_buffer f off size load batch with
          | None => None
          | Some None => Some (PFail (rest ++ [p]))
          | Some (Some b) =>
              if p_dirty p
              then match blit b 0 (p_buf p) with Some b' => Some (PPage rest (mkPage off b' true)) | None => None end
              else Some (PPage rest (mkPage off b false))
          end
        else Some (PPage rest p)
    end.

  (** The loops of WritePages over the pages before and after, tkrzw_file_util.cc:1096-1133; at most 16 each. *)
  Fixpoint prev_pages (n : nat) (l : list page) (off : nat) : list page :=
    match n with
    | O => []
    | S n' =>
        if off <? ps then [] else
        match get_page l (off - ps) with
        | None => []
        | Some p => if negb (p_dirty p) || negb (p_size p =? ps) then [] else p :: prev_pages n' l (off - ps)
        end
    end.
  Fixpoint next_pages (n : nat) (l : list page) (off : nat) : list page :=
    match n with
    | O => []
    | S n' =>
        match get_page l (off + ps) with
        | None => []
        | Some p => if negb (p_dirty p) then [] else p :: (if negb (p_size p =? ps) then [] else next_pages n' l (off + ps))
        end
    end.
  (** WritePages, tkrzw_file_util.cc:1094-1160: the slot with the written pages marked clean, and the file. *)
  Definition clean (offs : list nat) (p : page) : page :=
    if existsb (Nat.eqb (p_off p)) offs then mkPage (p_off p) (p_buf p) false else p.
  Definition write_pages (f : bytes) (l : list page) (p : page) : option (list page * bytes) :=
    let prevs := prev_pages 16 l (p_off p) in
    let nexts := if p_size p =? ps then next_pages 16 l (p_off p) else [] in
    let run := rev prevs ++ p :: nexts in
    match all_set (concat (map p_buf run)) with
    | None => None
    | Some data => Some (map (clean (map p_off run)) l, pwrite f (p_off p - length prevs * ps) data)
    end.
  (** The loop of ReduceCache, tkrzw_file_util.cc:1080-1091: [n] is num_excessives. *)
  Fixpoint reduce_loop (n : nat) (f : bytes) (l : list page) : option (list page * bytes) :=
    match n with
    | O => Some (l, f)
    | S n' =>
        match l with
        | [] => None
        | p :: _ =>
            match (if p_dirty p then write_pages f l p else Some (l, f)) with
            | None => None
            | Some (l', f') => reduce_loop n' f' (del_page l' (p_off p))
            end
        end
    end.
  (** ReduceCache, tkrzw_file_util.cc:1076-1093. *)
  Definition reduce (f : bytes) (l : list page) : option (list page * bytes) := reduce_loop (length l - cap) f l.
  (** ReduceCache of the slots locked by a batch, e.g. tkrzw_file_util.cc:800-804. *)
  Fixpoint reduce_slots (is_ : list nat) (s : pcache) : option pcache :=
    match is_ with
    | [] => Some s
    | i :: r => match reduce (pc_file s) (get_slot s i) with
                | None => None
                | Some (l, f) => reduce_slots r (set_slot s i l f)
                end
    end.
  (** LockSlots, tkrzw_file_util.cc:1000-1022: the slots of the requests, in ascending order. *)
  Definition locked (rs : list req) : list nat :=
    filter (fun i => existsb (fun r => slot_of (r_off r) =? i) rs) (seq 0 16).

  (** The first loop of Read, tkrzw_file_util.cc:742-757: the requests that are left and the bytes copied. *)
  Fixpoint read_hits (rs : list req) (s : pcache) (acc : buffer) : option (list req * pcache * buffer) :=
    match rs with
    | [] => Some ([], s, acc)
    | r :: rs' =>
        let i := slot_of (r_off r) in
        let l := get_slot s i in
        match get_page l (r_off r) with
        | None => Some (rs, s, acc)
        | Some p =>
            let s1 := set_slot s i (del_page l (r_off r) ++ [p]) (pc_file s) in
            if r_data r <=? p_size p
            then match slice (p_buf p) (r_pre r) (r_copy r) with
                 | None => None
                 | Some b => read_hits rs' s1 (acc ++ b)
                 end
            else Some (rs, s1, acc)
        end
    end.
  (** The loop over a batch, tkrzw_file_util.cc:784-799. *)
  Fixpoint read_batch (rs : list req) (area : buffer) (s : pcache) (acc : buffer) : option (pcache * buffer) :=
    match rs with
    | [] => Some (s, acc)
    | r :: rs' =>
        let i := slot_of (r_off r) in
        match prepare (pc_file s) (get_slot s i) (r_off r) (r_data r) false (Some area) with
        | Some (PPage rest p) =>
            match slice (p_buf p) (r_pre r) (r_copy r) with
            | None => None
            | Some b => read_batch rs' (skipn (r_data r) area) (set_slot s i (rest ++ [p]) (pc_file s)) (acc ++ b)
            end
        | _ => None
        end
    end.
  (** The area of a batch, tkrzw_file_util.cc:777-780: from the first request to the end of the last. *)
  Definition area_size (rs : list req) : nat :=
    match rs with [] => 0 | r :: _ => let z := last rs r in r_off z + r_data z - r_off r end.
  (** PageCache::Read, tkrzw_file_util.cc:736-813.  None: a copy out of bounds, or bytes that are not set are written. *)
  Definition pc_read (s : pcache) (off size : nat) : option (code * buffer * pcache) :=
    match read_hits (make_requests (pc_region s) off size) s [] with
    | None => None
    | Some ([], s1, acc) => Some (SUCCESS, acc, s1)
    | Some ([r], s1, acc) =>
        let i := slot_of (r_off r) in
        match prepare (pc_file s1) (get_slot s1 i) (r_off r) (r_data r) true None with
        | None => None
        | Some (PFail l) => Some (INFEASIBLE_ERROR, acc, set_slot s1 i l (pc_file s1))
        | Some (PPage rest p) =>
            match slice (p_buf p) (r_pre r) (r_copy r), reduce (pc_file s1) (rest ++ [p]) with
            | Some b, Some (l, f) => Some (SUCCESS, acc ++ b, set_slot s1 i l f)
            | _, _ => None
            end
        end
    | Some (r :: rs, s1, acc) =>
        match pread (pc_file s1) (r_off r) (area_size (r :: rs)) with
        | None => Some (INFEASIBLE_ERROR, acc, s1)
        | Some area =>
            match read_batch (r :: rs) (map Some area) s1 acc with
            | None => None
            | Some (s2, acc2) =>
                match reduce_slots (locked (r :: rs)) s2 with Some s3 => Some (SUCCESS, acc2, s3) | None => None end
            end
        end
    end.

  (** The first loop of Write, tkrzw_file_util.cc:820-837: the requests and the data that are left. *)
  Fixpoint write_hits (rs : list req) (s : pcache) (data : bytes) : option (list req * pcache * bytes) :=
    match rs with
    | [] => Some ([], s, data)
    | r :: rs' =>
        let i := slot_of (r_off r) in
        let l := get_slot s i in
        match get_page l (r_off r) with
        | None => Some (rs, s, data)
        | Some p =>
            if r_data r <=? p_size p
            then match blit (p_buf p) (r_pre r) (map Some (firstn (r_copy r) data)) with
                 | None => None
                 | Some b => write_hits rs' (set_slot s i (del_page l (r_off r) ++ [mkPage (p_off p) b true]) (pc_file s)) (skipn (r_copy r) data)
                 end
            else Some (rs, set_slot s i (del_page l (r_off r) ++ [p]) (pc_file s), data)
        end
    end.
  (** The loop over a batch, tkrzw_file_util.cc:882-898. *)
  Fixpoint write_batch (rs : list req) (area : buffer) (s : pcache) (data : bytes) : option pcache :=
    match rs with
    | [] => Some s
    | r :: rs' =>
        let i := slot_of (r_off r) in
        match prepare (pc_file s) (get_slot s i) (r_off r) (r_data r) false (Some area) with
        | Some (PPage rest p) =>
            match blit (p_buf p) (r_pre r) (map Some (firstn (r_copy r) data)) with
            | None => None
            | Some b => write_batch rs' (skipn (r_data r) area) (set_slot s i (rest ++ [mkPage (p_off p) b true]) (pc_file s))
                          (skipn (r_copy r) data)
            end
        | _ => None
        end
    end.
  (** The loop over the pages that need not be loaded, tkrzw_file_util.cc:865-876: how many bytes are skipped. *)
  Fixpoint full_bytes (rs : list req) (size : nat) : nat :=
    match rs with
    | r :: rs' => if (r_copy r =? ps) && (ps <=? size) then ps + full_bytes rs' (size - ps) else 0
    | [] => 0
    end.
  (** tkrzw_file_util.cc:860-880; [off] and [size] are what is left to write.  None if read_func_ fails. *)
  Definition write_area (f : bytes) (rs : list req) (off size : nat) : option buffer :=
    match rs with
    | [] => Some []
    | r :: _ =>
        let area := area_size rs in
        if negb (off mod ps =? 0) || negb (size mod ps =? 0) then
          let skip := full_bytes rs area in
          if 0 <? area - skip then
            match pread f (r_off r + skip) (area - skip) with Some b => Some (repeat None skip ++ map Some b) | None => None end
          else Some (repeat None area)
        else Some (repeat None area)
    end.
  (** tkrzw_file_util.cc:907-913. *)
  Definition grow (s : pcache) (off : nat) : pcache := mkPc (pc_slots s) (Nat.max (pc_region s) off) (pc_file s).
  (** PageCache::Write, tkrzw_file_util.cc:814-918. *)
  Definition pc_write (s : pcache) (off : nat) (data : bytes) : option (code * pcache) :=
    let size := length data in
    match write_hits (make_requests (pc_region s) off size) s data with
    | None => None
    | Some ([], s1, rest_) => Some (SUCCESS, grow s1 (off + size))
    | Some ([r], s1, rest_) =>
        let i := slot_of (r_off r) in
        let off1 := off + (size - length rest_) in
        match prepare (pc_file s1) (get_slot s1 i) (r_off r) (r_data r) (negb (r_copy r =? r_data r)) None with
        | None => None
        | Some (PFail l) => Some (INFEASIBLE_ERROR, grow (set_slot s1 i l (pc_file s1)) off1)
        | Some (PPage rest p) =>
            match blit (p_buf p) (r_pre r) (map Some (firstn (r_copy r) rest_)) with
            | None => None
            | Some b =>
                match reduce (pc_file s1) (rest ++ [mkPage (p_off p) b true]) with
                | Some (l, f) => Some (SUCCESS, grow (set_slot s1 i l f) (off + size))
                | None => None
                end
            end
        end
    | Some (rs, s1, rest_) =>
        let off1 := off + (size - length rest_) in
        match write_area (pc_file s1) rs off1 (length rest_) with
        | None => Some (INFEASIBLE_ERROR, grow s1 off1)
        | Some area =>
            match write_batch rs area s1 rest_ with
            | None => None
            | Some s2 =>
                match reduce_slots (locked rs) s2 with Some s3 => Some (SUCCESS, grow s3 (off + size)) | None => None end
            end
        end
    end.

  (** AlignNumber, tkrzw_sys_config.h:378-384. *)
  Definition align (x : nat) : nat := let r := x mod ps in if r =? 0 then x else x - r + ps.
  (** The loop over the pages of a slot in Flush and in the destructor, tkrzw_file_util.cc:931-937 and 724-731: [offs] are the
      offsets of the pages from the current one on, [want] the offsets to write. *)
  Fixpoint flush_slot (offs : list nat) (want : nat -> bool) (f : bytes) (l : list page) : option (list page * bytes) :=
    match offs with
    | [] => Some (l, f)
    | o :: r =>
        match get_page l o with
        | None => None
        | Some p =>
            if p_dirty p && want o
            then match write_pages f l p with Some (l', f') => flush_slot r want f' l' | None => None end
            else flush_slot r want f l
        end
    end.
  Fixpoint flush_slots (is_ : list nat) (want : nat -> bool) (s : pcache) : option pcache :=
    match is_ with
    | [] => Some s
    | i :: r => let l := get_slot s i in
                match flush_slot (map p_off l) want (pc_file s) l with
                | None => None
                | Some (l', f) => flush_slots r want (set_slot s i l' f)
                end
    end.
  (** PageCache::Flush, tkrzw_file_util.cc:920-940. *)
  Definition pc_flush (s : pcache) (off size : nat) : option (code * pcache) :=
    let size1 := if size =? 0 then pc_region s - off else size in
    let stop := align (off + size1) in
    let start := off - off mod ps in
    match flush_slots (seq 0 16) (fun o => (start <=? o) && (o <? stop)) s with
    | Some s' => Some (SUCCESS, s')
    | None => None
    end.
  (** PageCache::~PageCache, tkrzw_file_util.cc:721-734: the file that is left. *)
  Definition pc_destroy (s : pcache) : option bytes := option_map pc_file (flush_slots (seq 0 16) (fun _ => true) s).
  (** PageCache::Clear, tkrzw_file_util.cc:942-952. *)
  Definition pc_clear (s : pcache) : pcache := mkPc (map (fun _ => []) (pc_slots s)) (pc_region s) (pc_file s).
  (** PageCache::SetRegionSize, tkrzw_file_util.cc:958-960. *)
  Definition pc_set_region (s : pcache) (r : nat) : pcache := mkPc (pc_slots s) r (pc_file s).
  (** PageCache::PageCache, tkrzw_file_util.cc:711-719. *)
  Definition pc_new (f : bytes) : pcache := mkPc (repeat [] 16) 0 f.
End Pcache.
(** slot_capacity_, tkrzw_file_util.cc:713. *)
Definition slot_capacity (capacity : nat) : nat := Nat.max (capacity / 16) 1.
