(** The file classes.
    Source: /repo/tkrzw_file_mmap.cc (MemoryMapParallelFile; MemoryMapAtomicFile, 640-1180, does the same when one call runs at a
    time), /repo/tkrzw_file_pos.cc (PositionalParallelFile; likewise PositionalAtomicFile) and /repo/tkrzw_file_std.cc (StdFile).
    One object on one path.  Left out: locks on the file, other processes, failures of system calls (space, permissions), files
    that are not regular, offsets outside of int64_t, and the path operations GetPath, Rename and DisablePathOperations.
    Sizes are natural numbers. *)
From Coq Require Import List NArith Bool Arith.
Import ListNotations.
From Verif Require Import Bytes StatusModel PcacheModel FioSpec.
Local Open Scope nat_scope.

(** ftruncate, called by TruncateFile, tkrzw_sys_util_posix.h:90-97. *)
Definition ftrunc (f : bytes) (n : nat) : bytes := firstn n f ++ repeat 0%N (n - length f).
(** open with O_CREAT and O_TRUNC, tkrzw_file_mmap.cc:106-120 and tkrzw_file_pos.cc:128-147: the file that is then at the path;
    None is ENOENT. *)
Definition os_open (d : option bytes) (w create trunc : bool) : option bytes :=
  match d with
  | None => if w && create then Some [] else None
  | Some f => Some (if w && trunc then [] else f)
  end.
Definition pre_error : fout := OCode PRECONDITION_ERROR.

(* ---- memory mapping files ---- *)
(** writable_, file_size_, map_size_, tkrzw_file_mmap.cc:75-85, and the file on disk. *)
Record mfile := mkM { m_w : bool; m_size : nat; m_map : nat; m_disk : bytes }.
Inductive mstate := MClosed (d : option bytes) | MOpen (m : mfile).
Section Mmap.
  (** PAGE_SIZE, alloc_init_size_ and the map from map_size_ to map_size_ * alloc_inc_factor_, a double rounded down. *)
  Variables (page init : nat) (inc : nat -> nat).

  (** Reading mapped memory.  Up to the end of the page in which the file ends there are zeros, beyond is SIGBUS, and outside of the
      map anything: both are None. *)
  Definition mem_read (m : mfile) (off n : nat) : option bytes :=
    if n =? 0 then Some []
    else if (off + n <=? m_map m) && (off + n <=? align page (length (m_disk m)))
    then Some (firstn n (skipn off (m_disk m ++ repeat 0%N page))) else None.
  (** Writing mapped memory.  None also if bytes would not reach the file. *)
  Definition mem_write (m : mfile) (off : nat) (data : bytes) : option mfile :=
    match data with
    | [] => Some m
    | _ => if (off + length data <=? m_map m) && (off + length data <=? length (m_disk m))
           then Some (mkM (m_w m) (m_size m) (m_map m) (pwrite (m_disk m) off data)) else None
    end.
  (** Open, tkrzw_file_mmap.cc:100-189. *)
  Definition mm_open (d : option bytes) (w create trunc : bool) : fout * mstate :=
    match os_open d w create trunc with
    | None => (OCode NOT_FOUND_ERROR, MClosed d)
    | Some f =>
        let size := length f in
        if w then let map := align page (Nat.max 1 (Nat.max size init)) in (OCode SUCCESS, MOpen (mkM true size map (ftrunc f map)))
        else (OCode SUCCESS, MOpen (mkM false size (Nat.max size page) f))
    end.
  (** Close, tkrzw_file_mmap.cc:191-241. *)
  Definition mm_close (m : mfile) : mstate := MClosed (Some (if m_w m then ftrunc (m_disk m) (m_size m) else m_disk m)).
  (** AllocateSpace, tkrzw_file_mmap.cc:380-406. *)
  Definition mm_alloc (m : mfile) (min : nat) : mfile :=
    if min <=? m_map m then m
    else let map := align page (Nat.max (Nat.max min (inc (m_map m))) page) in mkM (m_w m) (m_size m) map (ftrunc (m_disk m) map).
  (** Zone::Zone for writing, tkrzw_file_mmap.cc:543-588, with off >= 0 (the other case has off = file_size_): the space is
      allocated, the size raised. *)
  Definition mm_zone (m : mfile) (off n : nat) : mfile :=
    let m1 := mm_alloc m (off + n) in mkM (m_w m1) (Nat.max (m_size m1) (off + n)) (m_map m1) (m_disk m1).
  (** Truncate, tkrzw_file_mmap.cc:243-270. *)
  Definition mm_truncate (m : mfile) (n : nat) : mfile :=
    let map := align page (Nat.max (Nat.max n page) init) in mkM (m_w m) n map (ftrunc (m_disk m) map).
  (** Synchronize, tkrzw_file_mmap.cc:283-320; msync is left out. *)
  Definition mm_sync (m : mfile) : mfile := mkM (m_w m) (m_size m) (m_size m) (ftrunc (m_disk m) (m_size m)).

  (** The methods, tkrzw_file_mmap.cc:418-502.  SetHeadBuffer does not exist. *)
  Definition mm_step (s : mstate) (call : fcall) : option (fout * mstate) :=
    match s with
    | MClosed d => match call with FOpen w cr tr => Some (mm_open d w cr tr) | FSetHeadBuffer _ => None | _ => Some (pre_error, s) end
    | MOpen m =>
        match call with
        | FOpen _ _ _ => Some (pre_error, s)
        | FClose => Some (OCode SUCCESS, mm_close m)
        | FRead off n =>
            (* Zone::Zone for reading, tkrzw_file_mmap.cc:589-600, and Read, 433-445 *)
            if m_size m <? off then Some (OCode INFEASIBLE_ERROR, s)
            else if negb (Nat.min n (m_size m - off) =? n) then Some (OCode INFEASIBLE_ERROR, s)
            else match mem_read m off n with Some b => Some (OBytes b, s) | None => None end
        | FWrite off data =>
            if negb (m_w m) then Some (pre_error, s)
            else match mem_write (mm_zone m off (length data)) off data with Some m' => Some (OCode SUCCESS, MOpen m') | None => None end
        | FAppend data =>
            if negb (m_w m) then Some (pre_error, s)
            else match mem_write (mm_zone m (m_size m) (length data)) (m_size m) data with
                 | Some m' => Some (ONum (m_size m), MOpen m') | None => None end
        | FExpand n =>
            if negb (m_w m) then Some (pre_error, s) else Some (ONum (m_size m), MOpen (mm_zone m (m_size m) n))
        | FTruncate n => if negb (m_w m) then Some (pre_error, s) else Some (OCode SUCCESS, MOpen (mm_truncate m n))
        | FTruncateFakely n =>
            (* tkrzw_file_mmap.cc:272-281 *)
            if m_map m <? n then Some (OCode INFEASIBLE_ERROR, s)
            else Some (OCode SUCCESS, MOpen (mkM (m_w m) n (m_map m) (m_disk m)))
        | FSynchronize _ _ _ => if negb (m_w m) then Some (pre_error, s) else Some (OCode SUCCESS, MOpen (mm_sync m))
        | FGetSize => Some (ONum (m_size m), s)
        | FSetHeadBuffer _ => None
        end
    end.
End Mmap.

(* ---- positional files ---- *)
(** writable_, file_size_, trunc_size_, the head buffer (none is the empty list) and the page cache, whose file is the one on disk;
    tkrzw_file_pos.cc:92-107.  Without a page cache its lists stay empty. *)
Record pfile := mkP { p_w : bool; p_size : nat; p_trunc : nat; p_head : bytes; p_pc : pcache }.
Inductive pstate := PClosed (d : option bytes) | POpen (p : pfile).
Section Pos.
  (** PAGE_SIZE, block_size_, alloc_init_size_, trunc_size_ * alloc_inc_factor_ as above, whether alloc_inc_factor_ is positive,
      and the access options ACCESS_PADDING and ACCESS_PAGECACHE. *)
  Variables (page block init : nat) (inc : nat -> nat) (inc_pos padding cached : bool).
  Definition cap : nat := slot_capacity 256.
  Definition p_disk (p : pfile) : bytes := pc_file (p_pc p).
  Definition on_disk (s : pcache) (f : bytes) : pcache := mkPc (pc_slots s) (pc_region s) f.
  (** page_cache_->SetRegionSize(size) when there is one. *)
  Definition region (s : pcache) (n : nat) : pcache := if cached then pc_set_region s n else s.
  (** page_cache_->Flush(off, size) when there is one; None is undefined behaviour. *)
  Definition flush (s : pcache) (off n : nat) : option pcache := if cached then option_map snd (pc_flush block s off n) else Some s.

  (** Open, tkrzw_file_pos.cc:123-227. *)
  Definition pp_open (d : option bytes) (w create trunc : bool) : fout * pstate :=
    match os_open d w create trunc with
    | None => (OCode NOT_FOUND_ERROR, PClosed d)
    | Some f =>
        let size := length f in
        let tr := if w then align (Nat.max page block) (Nat.max size init) else size in
        (OCode SUCCESS, POpen (mkP w size tr [] (region (pc_new (if w then ftrunc f tr else f)) tr)))
    end.
  (** Close, tkrzw_file_pos.cc:229-289.  The destructor of the page cache, 286, finds nothing to write when the file is writable, as
      all is flushed, and nothing has been written when it is not: it is left out. *)
  Definition pp_close (p : pfile) : option pstate :=
    if p_w p then
      match flush (p_pc p) 0 0 with
      | None => None
      | Some pc => Some (PClosed (Some (ftrunc (pwrite (pc_file pc) 0 (p_head p)) (if padding then align block (p_size p) else p_size p))))
      end
    else Some (PClosed (Some (p_disk p))).
  (** AllocateSpace, tkrzw_file_pos.cc:534-558. *)
  Definition pp_alloc (p : pfile) (min : nat) : pfile :=
    if min <=? p_trunc p then p
    else if negb inc_pos then mkP (p_w p) (p_size p) min (p_head p) (p_pc p)
    else let tr := align (Nat.max page block) (Nat.max min (inc (p_trunc p))) in
         mkP (p_w p) (p_size p) tr (p_head p) (region (on_disk (p_pc p) (ftrunc (p_disk p) tr)) tr).
  (** What PReadSequence leaves in a buffer that was not set, even if the file ends before. *)
  Definition pread_into (f : bytes) (off n : nat) : buffer :=
    let b := firstn n (skipn off f) in map Some b ++ repeat None (n - length b).

  (** The part of ReadImpl after the head buffer, tkrzw_file_pos.cc:571-606.  The address of the buffer does not matter.  trunc_size_ - end_position
      is not negative, as end_position <= file_size_ <= trunc_size_. *)
  Definition pp_read_rest (p : pfile) (off n : nat) : option (code * bytes * pcache) :=
    if n <? 1 then Some (SUCCESS, [], p_pc p)
    else if block =? 1 then
      match pread (p_disk p) off n with Some b => Some (SUCCESS, b, p_pc p) | None => Some (INFEASIBLE_ERROR, [], p_pc p) end
    else if cached then
      match pc_read block cap (p_pc p) off n with
      | Some (SUCCESS, b, pc) => match all_set b with Some b' => Some (SUCCESS, b', pc) | None => None end
      | Some (cd, _, pc) => Some (cd, [], pc)
      | None => None
      end
    else
      let end_ := off + n in
      let off_rem := off mod block in
      let end_rem := end_ mod block in
      if (0 <? off_rem) || (0 <? end_rem) then
        let mod_off := off - off_rem in
        let end_len := if 0 <? end_rem then block - end_rem else 0 in
        let end_len := if p_trunc p <? end_ + end_len then p_trunc p - end_ else end_len in
        match pread (p_disk p) mod_off (end_ + end_len - mod_off) with
        | Some b => Some (SUCCESS, firstn n (skipn off_rem b), p_pc p)
        | None => Some (INFEASIBLE_ERROR, [], p_pc p)
        end
      else
        match pread (p_disk p) off n with Some b => Some (SUCCESS, b, p_pc p) | None => Some (INFEASIBLE_ERROR, [], p_pc p) end.
  (** ReadImpl, tkrzw_file_pos.cc:560-606. *)
  Definition pp_read (p : pfile) (off n : nat) : option (code * bytes * pcache) :=
    if p_size p <? off + n then Some (INFEASIBLE_ERROR, [], p_pc p)
    else
      let hs := length (p_head p) in
      if off <? hs then
        let prefix := Nat.min n (hs - off) in
        match pp_read_rest p hs (n - prefix) with
        | Some (cd, b, pc) => Some (cd, firstn prefix (skipn off (p_head p)) ++ b, pc)
        | None => None
        end
      else pp_read_rest p off n.

  (** The part of WriteImpl after the head buffer, tkrzw_file_pos.cc:616-660.  None: memory that was never set is written to
      the file. *)
  Definition pp_write_rest (p : pfile) (off : nat) (data : bytes) : option (code * pcache) :=
    let n := length data in
    if n <? 1 then Some (SUCCESS, p_pc p)
    else if block =? 1 then Some (SUCCESS, on_disk (p_pc p) (pwrite (p_disk p) off data))
    else if cached then pc_write block cap (p_pc p) off data
    else
      let end_ := off + n in
      let off_rem := off mod block in
      let end_rem := end_ mod block in
      if (0 <? off_rem) || (0 <? end_rem) then
        let mod_off := off - off_rem in
        let end_len := if 0 <? end_rem then block - end_rem else 0 in
        let mod_end := end_ + end_len in
        let first := pread_into (p_disk p) mod_off block in
        let ok1 := (off_rem =? 0) || (mod_off + block <=? length (p_disk p)) in
        let again := (off_rem =? 0) || negb (mod_end - block =? mod_off) in
        let last := if again then pread_into (p_disk p) (mod_end - block) block else first in
        let ok2 := (end_len =? 0) || negb again || (mod_end <=? length (p_disk p)) in
        let aligned := firstn off_rem first ++ map Some data ++ firstn end_len (skipn end_rem last) in
        match all_set aligned with
        | None => None
        | Some b => Some (if ok1 && ok2 then SUCCESS else INFEASIBLE_ERROR, on_disk (p_pc p) (pwrite (p_disk p) mod_off b))
        end
      else Some (SUCCESS, on_disk (p_pc p) (pwrite (p_disk p) off data)).
  (** WriteImpl, tkrzw_file_pos.cc:608-660. *)
  Definition pp_write (p : pfile) (off : nat) (data : bytes) : option (code * pfile) :=
    let hs := length (p_head p) in
    let prefix := Nat.min (length data) (hs - off) in
    let head := if off <? hs then pwrite (p_head p) off (firstn prefix data) else p_head p in
    match (if off <? hs then pp_write_rest p hs (skipn prefix data) else pp_write_rest p off data) with
    | None => None
    | Some (cd, pc) => Some (cd, mkP (p_w p) (p_size p) (p_trunc p) head pc)
    end.
  (** Write, tkrzw_file_pos.cc:298-318, and Append, 320-346: the space is allocated and the size raised. *)
  Definition pp_room (p : pfile) (off n : nat) : pfile :=
    let p1 := pp_alloc p (align block (off + n)) in
    mkP (p_w p1) (Nat.max (p_size p1) (off + n)) (p_trunc p1) (p_head p1) (p_pc p1).
  (** Truncate, tkrzw_file_pos.cc:348-376. *)
  Definition pp_truncate (p : pfile) (n : nat) : option pfile :=
    match flush (p_pc p) 0 n with
    | None => None
    | Some pc0 =>
        let pc := if cached then pc_clear pc0 else pc0 in
        let tr := if negb inc_pos then Nat.max n init else align (Nat.max page block) (Nat.max (Nat.max n page) init) in
        Some (mkP (p_w p) n tr (p_head p) (region (on_disk pc (ftrunc (pc_file pc) tr)) tr))
    end.
  (** Synchronize, tkrzw_file_pos.cc:389-422; sync_file_range is left out. *)
  Definition pp_sync (p : pfile) (off n : nat) : option pfile :=
    match flush (p_pc p) off n with
    | None => None
    | Some pc =>
        let tr := align block (p_size p) in
        Some (mkP (p_w p) (p_size p) tr (p_head p) (region (on_disk pc (ftrunc (pwrite (pc_file pc) 0 (p_head p)) tr)) tr))
    end.
  (** SetHeadBuffer, tkrzw_file_pos.cc:432-459; sizeof(void* ) is 8.  The write of the old buffer fails with EBADF when the file is not
      writable. *)
  Definition pp_head (p : pfile) (n : nat) : option (code * pfile) :=
    match (if p_w p then flush (p_pc p) 0 0 else Some (p_pc p)) with
    | None => None
    | Some pc0 =>
        let pc := if cached then pc_clear pc0 else pc0 in
        let cd1 := match p_head p with [] => SUCCESS | _ => if p_w p then SUCCESS else SYSTEM_ERROR end in
        let pc1 := if p_w p then on_disk pc (pwrite (pc_file pc) 0 (p_head p)) else pc in
        if n <? 1 then Some (cd1, mkP (p_w p) (p_size p) (p_trunc p) [] pc1)
        else
          let hs := Nat.max 8 (align block n) in
          let rs := Nat.min hs (p_size p) in
          let b := firstn rs (pc_file pc1) in
          let cd2 := if (rs =? 0) || (rs <=? length (pc_file pc1)) then SUCCESS else INFEASIBLE_ERROR in
          Some (match cd1 with SUCCESS => cd2 | _ => cd1 end,
                mkP (p_w p) (p_size p) (p_trunc p) (b ++ repeat 0%N (hs - length b)) pc1)
    end.

  (** The methods, tkrzw_file_pos.cc:291-296 and 670-740. *)
  Definition pp_step (s : pstate) (call : fcall) : option (fout * pstate) :=
    match s with
    | PClosed d => match call with FOpen w cr tr => Some (pp_open d w cr tr) | _ => Some (pre_error, s) end
    | POpen p =>
        match call with
        | FOpen _ _ _ => Some (pre_error, s)
        | FClose => option_map (fun s' => (OCode SUCCESS, s')) (pp_close p)
        | FRead off n =>
            match pp_read p off n with
            | None => None
            | Some (SUCCESS, b, pc) => Some (OBytes b, POpen (mkP (p_w p) (p_size p) (p_trunc p) (p_head p) pc))
            | Some (cd, _, pc) => Some (OCode cd, POpen (mkP (p_w p) (p_size p) (p_trunc p) (p_head p) pc))
            end
        | FWrite off data =>
            if negb (p_w p) then Some (pre_error, s)
            else option_map (fun r => (OCode (fst r), POpen (snd r))) (pp_write (pp_room p off (length data)) off data)
        | FAppend data =>
            if negb (p_w p) then Some (pre_error, s)
            else option_map (fun r => (match fst r with SUCCESS => ONum (p_size p) | cd => OCode cd end, POpen (snd r)))
                   (pp_write (pp_room p (p_size p) (length data)) (p_size p) data)
        | FExpand n => if negb (p_w p) then Some (pre_error, s) else Some (ONum (p_size p), POpen (pp_room p (p_size p) n))
        | FTruncate n =>
            if negb (p_w p) then Some (pre_error, s) else option_map (fun p' => (OCode SUCCESS, POpen p')) (pp_truncate p n)
        | FTruncateFakely n =>
            (* tkrzw_file_pos.cc:378-387 *)
            if p_trunc p <? n then Some (OCode INFEASIBLE_ERROR, s)
            else Some (OCode SUCCESS, POpen (mkP (p_w p) n (p_trunc p) (p_head p) (p_pc p)))
        | FSynchronize _ off n =>
            if negb (p_w p) then Some (pre_error, s) else option_map (fun p' => (OCode SUCCESS, POpen p')) (pp_sync p off n)
        | FGetSize => Some (ONum (p_size p), s)
        | FSetHeadBuffer n => option_map (fun r => (OCode (fst r), POpen (snd r))) (pp_head p n)
        end
    end.
End Pos.

(* ---- standard files ---- *)
(** writable_, file_size_, tkrzw_file_std.cc:57-62, and the file on disk: the stream has no buffer, 302-308. *)
Record dfile := mkD { d_w : bool; d_size : nat; d_disk : bytes }.
Inductive dstate := DClosed (d : option bytes) | DOpen (f : dfile).
(** OpenImpl, tkrzw_file_std.cc:284-339. *)
Definition sd_open (d : option bytes) (w create trunc : bool) : fout * dstate :=
  match os_open d w create trunc with
  | None => (OCode NOT_FOUND_ERROR, DClosed d)
  | Some f => (OCode SUCCESS, DOpen (mkD w (length f) f))
  end.
(** CloseImpl, tkrzw_file_std.cc:341-356. *)
Definition sd_close (f : dfile) : bytes := if d_w f then ftrunc (d_disk f) (d_size f) else d_disk f.
(** seekp and write of the stream: a write beyond the end of the file fills the gap with zeros, as pwrite does. *)
Definition sd_put (f : dfile) (off : nat) (data : bytes) (size : nat) : dfile := mkD (d_w f) size (pwrite (d_disk f) off data).
(** WriteImpl, tkrzw_file_std.cc:374-395. *)
Definition sd_write (f : dfile) (off : nat) (data : bytes) : dfile :=
  match data with
  | [] => if d_size f <? off then sd_put f (off - 1) [0%N] (Nat.max (d_size f) off) else f
  | _ => sd_put f off data (Nat.max (d_size f) (off + length data))
  end.
(** The methods, tkrzw_file_std.cc:75-197 and AppendImpl, ExpandImpl, 397-438. *)
Definition sd_step (s : dstate) (call : fcall) : option (fout * dstate) :=
  match s with
  | DClosed d => match call with FOpen w cr tr => Some (sd_open d w cr tr) | FSetHeadBuffer _ => None | _ => Some (pre_error, s) end
  | DOpen f =>
      match call with
      | FOpen _ _ _ => Some (pre_error, s)
      | FClose => Some (OCode SUCCESS, DClosed (Some (sd_close f)))
      | FRead off n =>
          (* ReadImpl, tkrzw_file_std.cc:358-372 *)
          if d_size f <? off + n then Some (OCode INFEASIBLE_ERROR, s)
          else if off + n <=? length (d_disk f) then Some (OBytes (firstn n (skipn off (d_disk f))), s)
          else Some (OCode SYSTEM_ERROR, s)
      | FWrite off data => if negb (d_w f) then Some (pre_error, s) else Some (OCode SUCCESS, DOpen (sd_write f off data))
      | FAppend data =>
          if negb (d_w f) then Some (pre_error, s)
          else Some (ONum (d_size f), DOpen (match data with [] => f | _ => sd_put f (d_size f) data (d_size f + length data) end))
      | FExpand n =>
          if negb (d_w f) then Some (pre_error, s)
          else if n =? 0 then Some (OCode SUCCESS, s)
          else Some (ONum (d_size f), DOpen (sd_put f (d_size f + n - 1) [0%N] (d_size f + n)))
      | FTruncate n =>
          (* tkrzw_file_std.cc:132-168 *)
          if negb (d_w f) then Some (pre_error, s)
          else if n =? d_size f then Some (OCode SUCCESS, s)
          else if d_size f <? n then Some (OCode SUCCESS, DOpen (sd_put f (n - 1) [0%N] n))
          else let b := ftrunc (sd_close f) n in Some (OCode SUCCESS, DOpen (mkD true (length b) b))
      | FTruncateFakely n =>
          (* tkrzw_file_std.cc:170-180 *)
          if d_size f <? n then Some (OCode INFEASIBLE_ERROR, s) else Some (OCode SUCCESS, DOpen (mkD (d_w f) n (d_disk f)))
      | FSynchronize _ _ _ => Some (OCode SUCCESS, s)
      | FGetSize => Some (ONum (d_size f), s)
      | FSetHeadBuffer _ => None
      end
  end.
