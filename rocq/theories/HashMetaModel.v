(** The header of the hash database file, opening, closing and synchronizing.
    Source: class HashDBMImpl, /repo/tkrzw_dbm_hash.cc:29-90 (constants),
    655-692 (Clear), 737-766 (Synchronize), 1172-1357 (OpenImpl, CloseImpl,
    SaveMetadata, LoadMetadata, SetRecordBase), 1383-1425 (InitializeBuckets,
    SaveFBP, LoadFBP), 2237-2255 (CheckZeroRegion), 2644-2691 (ReadMetadata),
    2767-2777 (GetCRCWidthFromStaticFlags).
    Simplifications: no compressor (files with compression flags do not open in
    this model); files are opened as writable; I/O never fails; the wall clock is
    an argument; tuning of direct I/O is left out; the automatic restoration
    after OpenImpl is treated in HashRestoreModel.v. *)
From Verif Require Import Bytes MapSpec CodecModel FileModel HashUtilModel HashRecModel FbpModel HashDbModel.
Open Scope N_scope.

(** META_MAGIC_DATA "TkrzwHDB\n" and RECORD_BASE_MAGIC_DATA "TkrzwREC\n",
    tkrzw_dbm_hash.cc:32,49. *)
Definition META_MAGIC : bytes := [84; 107; 114; 122; 119; 72; 68; 66; 10].
Definition RECBASE_MAGIC : bytes := [84; 107; 114; 122; 119; 82; 69; 67; 10].
(** tkrzw_dbm_hash.cc:56-62 and tkrzw_dbm_hash.h:53 (OPAQUE_METADATA_SIZE). *)
Definition MAX_NUM_BUCKETS : Z := 1099511627689.
Definition OPAQUE_SIZE : nat := 64.

(** The fields of the header, tkrzw_dbm_hash.cc:169-190.  cyclic_magic_ is -1
    for a header found inconsistent. *)
Record hhdr := mkhdr {
  hd_cyc : Z; hd_major : N; hd_minor : N; hd_flags : N; hd_ow : N; hd_apow : N; hd_closure : N;
  hd_nb : Z; hd_num : Z; hd_eff : Z; hd_fsize : Z; hd_time : Z; hd_type : N; hd_opaque : bytes }.

(** Conversions between int64_t and uint64_t. *)
Definition u64 (z : Z) : N := Z.to_N (z mod 18446744073709551616).
Definition i64 (n : N) : Z := if n <? 9223372036854775808 then Z.of_N n else Z.of_N n - 18446744073709551616.

(** cyclic_magic_ = cyclic_magic_ % 255 + 1, tkrzw_dbm_hash.cc:1270. *)
Definition next_cyc (c : Z) : Z := Z.rem c 255 + 1.

(** SaveMetadata, tkrzw_dbm_hash.cc:1269-1299: the 128 bytes written, for a
    header whose counter was already advanced. *)
Definition hdr_bytes (h : hhdr) (finish : bool) : bytes :=
  let cyc := write_fix 1 (u64 (hd_cyc h)) in
  let closure := if negb (N.land (hd_closure h) 1 =? 0) && finish then 1 else 0 in
  META_MAGIC ++ cyc ++ write_fix 1 (hd_major h) ++ write_fix 1 (hd_minor h) ++
  write_fix 1 (hd_flags h) ++ write_fix 1 (hd_ow h) ++ write_fix 1 (hd_apow h) ++ write_fix 1 closure ++
  write_fix 8 (u64 (hd_nb h)) ++ write_fix 8 (u64 (Z.max 0 (hd_num h))) ++
  write_fix 8 (u64 (Z.max 0 (hd_eff h))) ++ write_fix 8 (u64 (hd_fsize h)) ++
  write_fix 8 (u64 (hd_time h)) ++ write_fix 4 (hd_type h) ++ [0; 0] ++
  (let o := firstn OPAQUE_SIZE (hd_opaque h) in o ++ repeat 0 (OPAQUE_SIZE - length o)) ++ [0] ++ cyc.

(** A field of the header as read by ReadMetadata. *)
Definition fld (b : bytes) (off len : nat) : N := read_fix_bytes (firstn len (skipn off b)).

(** ReadMetadata on the 128 bytes, tkrzw_dbm_hash.cc:2669-2690. *)
Definition parse_hdr (b : bytes) : option hhdr :=
  if beqb (firstn 9 b) META_MAGIC then
    let front := fld b 9 1 in
    let back := fld b 127 1 in
    Some (mkhdr (if front =? back then Z.of_N front else -1)
      (fld b 10 1) (fld b 11 1) (fld b 12 1) (fld b 13 1) (fld b 14 1) (fld b 15 1)
      (i64 (fld b 16 8)) (i64 (fld b 24 8)) (i64 (fld b 32 8)) (i64 (fld b 40 8)) (i64 (fld b 48 8))
      (fld b 56 4) (firstn OPAQUE_SIZE (skipn 62 b)))
  else None.

(** ReadMetadata on a file, tkrzw_dbm_hash.cc:2656-2668. *)
Definition read_hdr (f : file) : option hhdr :=
  match file_read f 0 METADATA_SIZE with
  | Some b => parse_hdr b
  | None => None
  end.

(** The static flags of a database, SetTuning, tkrzw_dbm_hash.cc:1123-1136 and
    SetUpdateModeAppending, 979-980. *)
Definition flags_of (d : hdb) : N :=
  (if d_inplace d then 1 else 2) +
  match crcw (d_c d) with 1%nat => 4 | 2%nat => 8 | 4%nat => 12 | _ => 0 end.
(** GetCRCWidthFromStaticFlags, tkrzw_dbm_hash.cc:2767-2777. *)
Definition crc_of (flags : N) : nat :=
  let x := N.land flags 12 in if x =? 4 then 1%nat else if x =? 8 then 2%nat else if x =? 12 then 4%nat else 0%nat.

(** The checks of LoadMetadata, tkrzw_dbm_hash.cc:1320-1347. *)
Definition hdr_valid (h : hhdr) : bool :=
  negb ((hd_major h <? 1) && (hd_minor h <? 1)) &&
  negb ((N.land (hd_flags h) 1 =? 0) && (N.land (hd_flags h) 2 =? 0)) &&
  (N.land (hd_flags h) 112 =? 0) &&
  (3 <=? hd_ow h) && (hd_ow h <=? 6) && (hd_apow h <=? 16) &&
  (0 <=? hd_num h)%Z && (0 <=? hd_eff h)%Z && (128 <=? hd_fsize h)%Z &&
  (1 <=? hd_nb h)%Z && (hd_nb h <=? MAX_NUM_BUCKETS)%Z.

(** What the members hold besides the format, the file and the counters. *)
Record hmisc := mkmisc { x_cyc : Z; x_major : N; x_minor : N; x_closure : N; x_type : N; x_opaque : bytes }.

Definition hdr_of (d : hdb) (x : hmisc) (num eff size time : Z) : hhdr :=
  mkhdr (next_cyc (x_cyc x)) (x_major x) (x_minor x) (flags_of d) (N.of_nat (ow (d_c d))) (apow (d_c d))
    (x_closure x) (Z.of_N (d_nb d)) num eff size time (x_type x) (x_opaque x).

Definition next_misc (x : hmisc) : hmisc :=
  mkmisc (next_cyc (x_cyc x)) (x_major x) (x_minor x) (x_closure x) (x_type x) (x_opaque x).

(** SaveMetadata on the file; [size] and [time] are file_size_ and timestamp_. *)
Definition save_meta (d : hdb) (x : hmisc) (s : hst) (size time : Z) (finish : bool) : file :=
  file_write (s_file s) 0 (hdr_bytes (hdr_of d x (s_num s) (s_eff s) size time) finish).

Definition with_file (s : hst) (f : file) : hst := mkhst f (s_fbp s) (s_num s) (s_eff s) (s_log s).

(** Position of the free block section, tkrzw_dbm_hash.cc:1409-1425. *)
Definition fbp_pos (d : hdb) : N := record_base d - RECORD_BASE_HEADER_SIZE - FBP_SECTION_SIZE.
(** SaveFBP, tkrzw_dbm_hash.cc:1409-1413. *)
Definition save_fbp (d : hdb) (f : file) (p : fbpool) : file :=
  file_write f (fbp_pos d) (fbp_serialize p (ow (d_c d)) (apow (d_c d)) FBP_SECTION_SIZE).
(** LoadFBP, tkrzw_dbm_hash.cc:1415-1425. *)
Definition load_fbp (d : hdb) (f : file) (cap : N) : option fbpool :=
  match file_read f (fbp_pos d) FBP_SECTION_SIZE with
  | Some b => Some (fbp_deserialize (mkfbp cap []) (ow (d_c d)) (apow (d_c d)) b)
  | None => None
  end.

(** CloseImpl of a healthy database, tkrzw_dbm_hash.cc:1236-1243: the resulting
    file. *)
Definition h_close (d : hdb) (x : hmisc) (s : hst) (time : Z) : file :=
  save_fbp d (save_meta d x s (Z.of_N (fsize (s_file s))) time true) (s_fbp s).

(** Synchronize, tkrzw_dbm_hash.cc:737-766: the file as the FileProcessor sees
    it (after SaveMetadata(true)), and the state afterwards. *)
Definition h_sync_image (d : hdb) (x : hmisc) (s : hst) (time : Z) : file :=
  save_meta d x s (Z.of_N (fsize (s_file s))) time true.
Definition h_sync (d : hdb) (x : hmisc) (s : hst) (time : Z) : hmisc * hst :=
  let s1 := with_file s (h_sync_image d x s time) in
  (next_misc (next_misc x), with_file s (save_meta d (next_misc x) s1 (Z.of_N (fsize (s_file s))) time false)).

(** CheckZeroRegion, tkrzw_dbm_hash.cc:2237-2255: at most 128 KiB are examined. *)
Definition zero_region (f : file) (off stop : N) : bool :=
  forallb (fun b => b =? 0) (dread (fdata f) off (N.to_nat (N.min (off + 131072) stop - off))).

(** OpenImpl on an existing file, tkrzw_dbm_hash.cc:1190-1233, followed by
    LoadFBP.  [cap] and [mrs] come from the tuning parameters.  The result
    tells whether the database is healthy; None is a failure to open. *)
Record opened := mkopened { op_healthy : bool; op_db : hdb; op_misc : hmisc; op_st : hst }.
Definition h_open (cap mrs : N) (f : file) : option opened :=
  match read_hdr f with
  | None => None
  | Some h =>
      if hdr_valid h then
        let size := if (hd_cyc h <? 0)%Z then 9223372036854775807%Z else hd_fsize h in
        let d := mkhdb (mkhcfg (N.to_nat (hd_ow h)) (hd_apow h) (crc_of (hd_flags h))) (Z.to_N (hd_nb h))
                   (negb (N.land (hd_flags h) 1 =? 0)) mrs in
        let act := Z.of_N (fsize f) in
        let closed := negb (N.land (hd_closure h) 1 =? 0) in
        let '(healthy, f1) :=
          if (size =? act)%Z then (closed, f)
          else if (act <? size)%Z then (false, f)
          else if zero_region f (Z.to_N size) (fsize f) then (closed, file_truncate f (Z.to_N size))
          else (false, f) in
        let x := mkmisc (hd_cyc h) (hd_major h) (hd_minor h) (hd_closure h) (hd_type h) (hd_opaque h) in
        let s1 := mkhst f1 (mkfbp cap []) (hd_num h) (hd_eff h) [] in
        if healthy then
          let s2 := with_file s1 (save_meta d x s1 size (hd_time h) false) in
          if d_inplace d then
            match load_fbp d (s_file s2) cap with
            | Some p => Some (mkopened true d (next_misc x)
                                (mkhst (s_file s2) p (hd_num h) (hd_eff h) []))
            | None => None
            end
          else Some (mkopened true d (next_misc x) s2)
        else Some (mkopened false d x s1)
      else None
  end.

(** The file made by OpenImpl for a new database, tkrzw_dbm_hash.cc:1173-1188
    and InitializeBuckets, 1383-1407. *)
Definition rechead (d : hdb) : bytes :=
  RECBASE_MAGIC ++ write_fix 1 (flags_of d) ++ write_fix 1 (N.of_nat (ow (d_c d))) ++ write_fix 1 (apow (d_c d)) ++ [0; 0; 0; 0].
Definition h_create (d : hdb) (x : hmisc) (time : Z) : file :=
  let f := file_write (mkfile (fun _ => 0) (record_base d)) (record_base d - RECORD_BASE_HEADER_SIZE) (rechead d) in
  save_meta d x (mkhst f (mkfbp 1 []) 0 0 []) (Z.of_N (record_base d)) time true.

(** Sessions: a process opens the file, performs operations and closes it. *)
Fixpoint run_sessions (cap mrs : N) (f : file) (sessions : list (list hop * Z))
  : option (file * list (hstatus * option (option bytes))) :=
  match sessions with
  | [] => Some (f, [])
  | (ops, time) :: rest =>
      match h_open cap mrs f with
      | Some o =>
          if op_healthy o then
            let '(s, out) := h_run (op_db o) (op_st o) ops in
            match run_sessions cap mrs (h_close (op_db o) (op_misc o) s time) rest with
            | Some (f', out') => Some (f', out ++ out')
            | None => None
            end
          else None
      | None => None
      end
  end.
