(** The message queue.  Source: /repo/tkrzw_message_queue.cc.
    Files are byte lists, a directory is the list of (file id, content) in the
    order of FindFiles (paths end with ten digits, so this is the order of the ids
    as long as they are below 10^10).  Only the writable mode is modelled, one
    process; system calls succeed except that reading past the end of a file is
    INFEASIBLE_ERROR (tkrzw_file_pos.cc:561-563).  Stray files matching the
    prefix are not modelled. *)
From Verif Require Import Bytes CodecModel HashUtilModel StatusModel.
Local Open Scope N_scope.

(** tkrzw_message_queue.cc:29-38 *)
Definition MQ_META_SIZE : N := 32.
Definition MQ_HEADER_SIZE : N := 11.
Definition MQ_REC_MAGIC : N := 255.
Definition mq_magic : bytes := [84; 107; 114; 122; 119; 77; 81; 88; 10].
(** INT64MAX and the limit of timestamps, (1LL << 48) - 1. *)
Definition INT64MAX : N := 9223372036854775807.
Definition TS_LIMIT : N := 281474976710655.
Definition UINT32MAX : N := 4294967295.

(** The buffer of SaveMetadata, tkrzw_message_queue.cc:331-339. *)
Definition meta_bytes (cyc fid ts size : N) : bytes :=
  mq_magic ++ write_fix 1 cyc ++ write_fix 6 fid ++ write_fix 6 ts ++ write_fix 6 size ++ [0; 0; 0] ++ write_fix 1 cyc.
(** SaveMetadata, tkrzw_message_queue.cc:329-341: the new content of the file. *)
Definition save_meta (f : bytes) (cyc fid ts : N) : bytes :=
  meta_bytes cyc fid ts (N.max (blen f) MQ_META_SIZE) ++ skipn 32 f.
(** LoadMetadata, tkrzw_message_queue.cc:343-363; the cyclic magic is None for -1. *)
Definition load_meta (f : bytes) : code + (option N * N * N * N) :=
  if blen f <? MQ_META_SIZE then inl INFEASIBLE_ERROR
  else if negb (beqb (firstn 9 f) mq_magic) then inl BROKEN_DATA_ERROR
  else
    let front := read_fix 1 (skipn 9 f) in
    let back := read_fix 1 (skipn 31 f) in
    inr (if front =? back then Some front else None,
         read_fix 6 (skipn 10 f), read_fix 6 (skipn 16 f), read_fix 6 (skipn 22 f)).

(** The bytes [off, off + n) of a file; the caller checks the size. *)
Definition sub (f : bytes) (off n : N) : bytes := firstn (N.to_nat n) (skipn (N.to_nat off) f).
Definition is_zero (b : bytes) : bool := forallb (fun x => x =? 0) b.
(** CheckFileZeroRegion, tkrzw_message_queue.cc:101-119, with end_offset not
    beyond the end of the file: only the first 128 KiB are checked. *)
Definition zero_region (f : bytes) (off end_ : N) : bool := is_zero (sub f off (N.min 131072 (end_ - off))).

(** The record of WriteImpl, tkrzw_message_queue.cc:417-431. *)
Definition rec_header (ts size : N) : bytes := MQ_REC_MAGIC :: write_fix 6 ts ++ write_fix 4 size.
Definition mrec (ts : N) (m : bytes) : bytes :=
  let b := rec_header ts (blen m) ++ m in b ++ [csum_continuous 251 b 0 + 1].

(** ReadNextMessage, tkrzw_message_queue.cc:687-745: the status, *file_offset and,
    on success, *timestamp and the message if it is filled. *)
Definition read_next (f : bytes) (off0 min : N) : code * N * option (N * option bytes) :=
  let off := N.max off0 MQ_META_SIZE in
  if blen f <? off + MQ_HEADER_SIZE then (INFEASIBLE_ERROR, off, None)
  else
    let h := sub f off MQ_HEADER_SIZE in
    if negb (hd 0 h =? MQ_REC_MAGIC)
    then (if is_zero h && zero_region f off (blen f) then CANCELED_ERROR else BROKEN_DATA_ERROR, off, None)
    else
      let ts := read_fix 6 (skipn 1 h) in
      let n := read_fix 4 (skipn 7 h) in
      if n =? UINT32MAX then (BROKEN_DATA_ERROR, off, None)
      else
        let off1 := off + MQ_HEADER_SIZE in
        if min <=? ts then
          if blen f <? off1 + n + 1 then (INFEASIBLE_ERROR, off1, None)
          else
            let m := sub f off1 n in
            let ck := hd 0 (sub f (off1 + n) 1) in
            if ck =? csum_pair 251 h m 0 + 1 then (SUCCESS, off1 + n + 1, Some (ts, Some m))
            else (BROKEN_DATA_ERROR, off1 + n + 1, None)
        else (SUCCESS, off1 + n + 1, Some (ts, None)).

(** * The directory *)
Definition dir := list (N * bytes).
Fixpoint f_get (l : dir) (id : N) : option bytes :=
  match l with [] => None | (i, f) :: l' => if i =? id then Some f else f_get l' id end.
(** Writing a file; a new one gets the last path (see the header). *)
Fixpoint f_put (l : dir) (id : N) (f : bytes) : dir :=
  match l with [] => [(id, f)] | (i, g) :: l' => if i =? id then (id, f) :: l' else (i, g) :: f_put l' id f end.
Definition f_of (l : dir) (id : N) : bytes := match f_get l id with Some f => f | None => [] end.

(** * The queue, MessageQueueImpl, tkrzw_message_queue.cc:42-79 *)
Record mq := mkMq {
  q_dir : dir;
  q_open : bool;          (* files_ is not empty *)
  q_last : N;             (* last_file_id_ *)
  q_cyc : option N;       (* cyclic_magic_; None is -1 *)
  q_ts : N;               (* timestamp_ *)
  q_max : N               (* max_file_size_ *) }.

(** cyclic_magic_ % 255 + 1, tkrzw_message_queue.cc:376. *)
Definition cyc_next (c : option N) : N := match c with Some c => c mod 255 + 1 | None => 0 end.
(** SynchronizeImpl, tkrzw_message_queue.cc:371-380. *)
Definition q_sync (q : mq) : mq :=
  let c := cyc_next (q_cyc q) in
  mkMq (f_put (q_dir q) (q_last q) (save_meta (f_of (q_dir q) (q_last q)) c (q_last q) (q_ts q)))
       (q_open q) (q_last q) (Some c) (q_ts q) (q_max q).
(** Synchronize, tkrzw_message_queue.cc:316-319. *)
Definition mq_sync (q : mq) : code * mq :=
  if q_open q then (SUCCESS, q_sync q) else (PRECONDITION_ERROR, q).
(** WriteImpl, tkrzw_message_queue.cc:392-436.  Starting a new file: the old one is
    synchronized, the new one is created empty and synchronized. *)
Definition q_rotate (q : mq) : mq :=
  let q1 := q_sync q in
  let id := q_last q1 + 1 in
  q_sync (mkMq (f_put (q_dir q1) id []) (q_open q1) id (q_cyc q1) (q_ts q1) (q_max q1)).
Definition q_write (q : mq) (ts : N) (m : bytes) : mq :=
  let q1 := if q_max q <=? blen (f_of (q_dir q) (q_last q)) then q_rotate q else q in
  let t := N.max ts (q_ts q1) in
  mkMq (f_put (q_dir q1) (q_last q1) (f_of (q_dir q1) (q_last q1) ++ mrec t m)) (q_open q1) (q_last q1) (q_cyc q1) t (q_max q1).
(** Write, tkrzw_message_queue.cc:277-302.  A negative timestamp is replaced by the
    clock: [ts] is the number after that.  Synchronizing after every message
    (OPEN_SYNC_HARD) is [hard]. *)
Definition mq_write (q : mq) (hard : bool) (ts : N) (m : bytes) : code * mq :=
  if TS_LIMIT <=? ts then (INVALID_ARGUMENT_ERROR, q)
  else if negb (q_open q) then (PRECONDITION_ERROR, q)
  else let q1 := q_write q ts m in (SUCCESS, if hard then q_sync q1 else q1).
(** UpdateTimestamp, tkrzw_message_queue.cc:304-314. *)
Definition mq_update (q : mq) (ts : N) : code * mq :=
  if TS_LIMIT <=? ts then (INVALID_ARGUMENT_ERROR, q)
  else (SUCCESS, mkMq (q_dir q) (q_open q) (q_last q) (q_cyc q) (N.max ts (q_ts q)) (q_max q)).
(** Close, tkrzw_message_queue.cc:245-263. *)
Definition mq_close (q : mq) : code * mq :=
  if q_open q then
    let q1 := q_sync q in (SUCCESS, mkMq (q_dir q1) false (q_last q1) (q_cyc q1) (q_ts q1) (q_max q1))
  else (PRECONDITION_ERROR, q).

(** The loop of Open over the messages, tkrzw_message_queue.cc:217-223, with the
    limit INT64MAX: the bodies are not read. *)
Fixpoint scan (fuel : nat) (f : bytes) (off : N) : option N :=
  match fuel with
  | O => None
  | S fu => let '(c, off', _) := read_next f off INT64MAX in if code_eqb c SUCCESS then scan fu f off' else Some off'
  end.
(** ftruncate: cut, or extend with zeros. *)
Definition cut_to (f : bytes) (n : N) : bytes := firstn (N.to_nat n) f ++ repeat 0 (N.to_nat (n - blen f)).
(** Open of a new object in the writable mode, tkrzw_message_queue.cc:135-243.
    [trunc] is OPEN_TRUNCATE, [ignore] is OPEN_IGNORE_BROKEN.  When it fails after
    reading the metadata, the files stay open (files_ is not cleared).  None: the
    fuel of the scan ran out (shown to be impossible). *)
Definition mq_open (d0 : dir) (max : N) (trunc ignore : bool) : option (code * mq) :=
  let d1 := if trunc then [] else d0 in
  let last := match rev d1 with [] => 0 | (i, _) :: _ => i end in
  let q0 := mkMq (match d1 with [] => [(0, [])] | _ => d1 end) true last (Some 0) 0 max in
  let q1 := match f_of (q_dir q0) last with [] => q_sync q0 | _ => q0 end in
  let f := f_of (q_dir q1) last in
  match load_meta f with
  | inl c => Some (c, q1)
  | inr (cyc, fid, ts, size) =>
      let q2 := mkMq (q_dir q1) true last cyc ts max in
      let st := match cyc with None => BROKEN_DATA_ERROR | Some _ => if fid =? last then SUCCESS else BROKEN_DATA_ERROR end in
      let bad := negb (code_eqb st SUCCESS) in
      if bad && negb ignore then Some (st, q2)
      else if negb bad && (size =? blen f) then Some (SUCCESS, q2)
      else
        match scan (S (length f)) f MQ_META_SIZE with
        | None => None
        | Some n =>
            if (n =? blen f) || ignore || ((n <? blen f) && zero_region f n (blen f))
            then Some (st, mkMq (f_put (q_dir q2) last (cut_to f n)) true last cyc ts max)
            else Some (if code_eqb st SUCCESS then BROKEN_DATA_ERROR else st, q2)
        end
  end.

(** RemoveOldFiles, tkrzw_message_queue.cc:656-685.  The status of the files read
    so far matters: an unreadable one ends the call. *)
Fixpoint remove_old (l : dir) (threshold : N) (keep_last : bool) : code * dir :=
  match l with
  | [] => (SUCCESS, [])
  | (i, f) :: l' =>
      if keep_last && match l' with [] => true | _ => false end then (SUCCESS, l)
      else
        match load_meta f with
        | inl c => (c, l)
        | inr (_, _, ts, _) =>
            let '(c, l1) := remove_old l' threshold keep_last in
            (c, if ts <? threshold then l1 else (i, f) :: l1)
        end
  end.

(** * Readers, MessageQueueReaderImpl, tkrzw_message_queue.cc:81-99 *)
Record rd := mkRd { r_min : N; r_fid : option N; r_off : N; r_file : bool; r_ts : option N; r_cancel : bool }.
(** The constructor, tkrzw_message_queue.cc:438-443; min_timestamp below 0 is as 0. *)
Definition rd_new (min : N) : rd := mkRd min None 0 false None false.
(** What one turn of the loop of Read does, with the lock held: another turn, wait
    for a message (or INFEASIBLE_ERROR, depending on wait_time), failure, message. *)
Inductive turn := TMore | TWait | TFail (c : code) | TGot (ts : N) (m : bytes).
(** The choice of the first file, tkrzw_message_queue.cc:463-485. *)
Fixpoint pick (l : dir) (min : N) : code + option N :=
  match l with
  | [] => inr None
  | (_, f) :: l' =>
      match load_meta f with
      | inl c => inl c
      | inr (_, fid, ts, _) => if min <=? ts then inr (Some fid) else pick l' min
      end
  end.
(** MessageQueueReaderImpl::Read, tkrzw_message_queue.cc:453-550, one turn. *)
Definition rd_turn (q : mq) (r : rd) : turn * rd :=
  if r_cancel r || negb (q_open q) then (TFail CANCELED_ERROR, mkRd (r_min r) (r_fid r) (r_off r) false (r_ts r) (r_cancel r))
  else
    match (match r_fid r with
           | Some i => inr i
           | None => match pick (q_dir q) (r_min r) with inl c => inl c | inr (Some i) => inr i | inr None => inr (q_last q) end
           end) with
    | inl c => (TFail c, r)
    | inr id =>
        match f_get (q_dir q) id with
        | None => (TFail NOT_FOUND_ERROR, mkRd (r_min r) (Some id) (r_off r) false (r_ts r) (r_cancel r))
        | Some f =>
            let off := if r_file r then r_off r else MQ_META_SIZE in
            if blen f <? off + MQ_HEADER_SIZE then
              if id =? q_last q then (TWait, mkRd (r_min r) (Some id) off true (r_ts r) (r_cancel r))
              else (TMore, mkRd (r_min r) (Some (id + 1)) 0 false (r_ts r) (r_cancel r))
            else
              match read_next f off (r_min r) with
              | (_, off', Some (ts, Some m)) => (TGot ts m, mkRd (r_min r) (Some id) off' true (Some ts) (r_cancel r))
              | (_, off', Some (ts, None)) => (TMore, mkRd (r_min r) (Some id) off' true (Some ts) (r_cancel r))
              | (c, off', None) => (TFail c, mkRd (r_min r) (Some id) off' true (r_ts r) (r_cancel r))
              end
        end
    end.
(** The loop of Read, with wait_time = 0 and nobody writing meanwhile. *)
Fixpoint rd_read (fuel : nat) (q : mq) (r : rd) : option (turn * rd) :=
  match fuel with
  | O => None
  | S fu => match rd_turn q r with (TMore, r') => rd_read fu q r' | x => Some x end
  end.
