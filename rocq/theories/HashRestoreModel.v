(** Scanning a hash database file and importing it into another database; the
    iterator.
    Source: /repo/tkrzw_dbm_hash_impl.cc:312-537 (FindNextOffset,
    ReplayOperations, ExtractOffsets, OffsetReader) and
    /repo/tkrzw_dbm_hash.cc:1890-2105 (ImportFromFileForwardImpl,
    ImportFromFileBackwardImpl), 2824-2997 (RestoreDatabase).
    Simplifications: no compressor; the file of offsets written by
    ExtractOffsets and read backward by OffsetReader is a list; the database of
    dead keys is a list of keys. *)
From Verif Require Import Bytes MapSpec CodecModel FileModel HashUtilModel HashRecModel FbpModel HashDbModel.
Open Scope N_scope.

(** ReadMetadataKey followed by CheckCRC. *)
Definition read_checked (c : hcfg) (f : file) (off mrs : N) : option hmeta :=
  match read_meta c f off mrs with
  | Some m => if check_crc c f off m then Some m else None
  | None => None
  end.

(** The validation loop of FindNextOffset, tkrzw_dbm_hash_impl.cc:329-345;
    [left] is VALIDATION_COUNT - count. *)
Fixpoint fno_check (left : nat) (c : hcfg) (f : file) (mrs off : N) : bool :=
  match left with
  | O => true
  | S left' =>
      if off <? fsize f then
        match read_checked c f off mrs with
        | Some m =>
            if (m_whole m <=? 1048576) && negb (m_whole m mod halign c =? 0) then false
            else if off + m_whole m =? fsize f then true
            else fno_check left' c f mrs (off + m_whole m)
        | None => false
        end
      else false
  end.
(** The outer loop, tkrzw_dbm_hash_impl.cc:324-353. *)
Fixpoint fno_loop (tries : nat) (c : hcfg) (f : file) (mrs off : N) : option N :=
  match tries with
  | O => None
  | S tries' =>
      if off <? fsize f then
        match read_checked c f off mrs with
        | Some m => if fno_check 3 c f mrs (off + m_whole m) then Some off
                    else fno_loop tries' c f mrs (off + halign c)
        | None => fno_loop tries' c f mrs (off + halign c)
        end
      else None
  end.
(** FindNextOffset, tkrzw_dbm_hash_impl.cc:312-355. *)
Definition find_next (c : hcfg) (f : file) (off mrs : N) : option N :=
  fno_loop 1000 c f mrs (align_num (off + min_record_size c) (halign c)).

(** The end of a scan: complete, a broken record (not skipped) or out of fuel. *)
Inductive scan_end := ScanOk | ScanBroken | ScanNoFuel.

(** ReplayOperations, tkrzw_dbm_hash_impl.cc:357-433: the operations given to
    the processor in order. *)
Fixpoint replay (fuel : nat) (c : hcfg) (f : file) (mrs : N) (skip : bool) (end_off off : N) : list ulop * scan_end :=
  match fuel with
  | O => ([], ScanNoFuel)
  | S fuel' =>
      if off <? end_off then
        match read_checked c f off mrs with
        | None =>
            if skip then
              match find_next c f off mrs with
              | Some next => replay fuel' c f mrs skip end_off next
              | None => ([], ScanOk)
              end
            else ([], ScanBroken)
        | Some m =>
            let '(l, e) := replay fuel' c f mrs skip end_off (off + m_whole m) in
            match m_type m with
            | OpSet | OpAdd =>
                match meta_value f off m with
                | Some v => (LSet (m_key m) v :: l, e)
                | None => if skip then (l, e) else ([], ScanBroken)
                end
            | OpRemove => (LRemove (m_key m) :: l, e)
            | OpVoid => (l, e)
            end
        end
      else ([], ScanOk)
  end.

(** ExtractOffsets, tkrzw_dbm_hash_impl.cc:435-482: the offsets of the records
    that are not void, in order. *)
Fixpoint extract (fuel : nat) (c : hcfg) (f : file) (skip : bool) (end_off off : N) : list N * scan_end :=
  match fuel with
  | O => ([], ScanNoFuel)
  | S fuel' =>
      if off <? end_off then
        match read_meta c f off META_MIN_READ_SIZE with
        | None =>
            if skip then
              match find_next c f off META_MIN_READ_SIZE with
              | Some next => extract fuel' c f skip end_off next
              | None => ([], ScanOk)
              end
            else ([], ScanBroken)
        | Some m =>
            let '(l, e) := extract fuel' c f skip end_off (off + m_whole m) in
            match m_type m with
            | OpVoid => (l, e)
            | _ => (off :: l, e)
            end
        end
      else ([], ScanOk)
  end.

(** [end_off] as given: None stands for a negative one (the end of the file). *)
Definition scan_limit (f : file) (end_off : option N) : N :=
  match end_off with Some e => N.min e (fsize f) | None => fsize f end.

(** The importer of ImportFromFileForwardImpl, tkrzw_dbm_hash.cc:1916-1935.  The
    statuses of the updates are not looked at, as in the code. *)
Fixpoint apply_ops (d : hdb) (s : hst) (l : list ulop) : hst :=
  match l with
  | [] => s
  | LSet k v :: l' => apply_ops d (h_st (h_set d s k v)) l'
  | LRemove k :: l' => apply_ops d (h_st (h_remove d s k)) l'
  end.

(** ImportFromFileForwardImpl, tkrzw_dbm_hash.cc:1890-1938: imports the records
    of the file [f] of format [c] from [base]. *)
Definition import_forward (d : hdb) (s : hst) (c : hcfg) (f : file) (skip : bool) (base : N) (end_off : option N)
  : hst * scan_end :=
  let '(l, e) := replay (S (N.to_nat (fsize f))) c f (d_mrs d) skip (scan_limit f end_off) base in
  (apply_ops d s l, e).

(** The loop of ImportFromFileBackwardImpl over the offsets, newest first,
    tkrzw_dbm_hash.cc:1996-2095. *)
Fixpoint apply_back (d : hdb) (s : hst) (dead : list bytes) (c : hcfg) (f : file) (skip : bool) (offs : list N)
  : hst * scan_end :=
  match offs with
  | [] => (s, ScanOk)
  | off :: offs' =>
      match read_checked c f off (d_mrs d) with
      | None => if skip then apply_back d s dead c f skip offs' else (s, ScanBroken)
      | Some m =>
          let key := m_key m in
          match m_type m with
          | OpSet | OpAdd =>
              match meta_value f off m with
              | None => if skip then apply_back d s dead c f skip offs' else (s, ScanBroken)
              | Some v =>
                  if existsb (beqb key) dead then apply_back d s dead c f skip offs'
                  else
                    let r := h_process d s key (proc_set v false) false true in
                    match h_status r with
                    | HOk => apply_back d (h_st r) dead c f skip offs'
                    | _ => (h_st r, ScanBroken)
                    end
              end
          | OpRemove =>
              let r := h_process d s key proc_get false false in
              match h_status r with
              | HOk =>
                  match h_seen r with
                  | Some (Some _) => apply_back d s dead c f skip offs'
                  | _ => apply_back d s (key :: dead) c f skip offs'
                  end
              | _ => (s, ScanBroken)
              end
          | OpVoid => (s, ScanBroken)
          end
      end
  end.

(** ImportFromFileBackwardImpl, tkrzw_dbm_hash.cc:1940-2105. *)
Definition import_backward (d : hdb) (s : hst) (c : hcfg) (f : file) (skip : bool) (base : N) (end_off : option N)
  : hst * scan_end :=
  match extract (S (N.to_nat (fsize f))) c f skip (scan_limit f end_off) base with
  | (offs, ScanOk) => apply_back d s [] c f skip (rev offs)
  | (_, e) => (s, e)
  end.

(** RestoreDatabase, tkrzw_dbm_hash.cc:2824-2993, after the parameters [d] of
    the new database (those of the old one, in the same mode) and the record
    base were found: the records are imported into an empty database. *)
Definition restore (d : hdb) (cap : N) (f : file) (end_off : option N) : hst * scan_end :=
  if d_inplace d then import_forward d (h_init d cap) (d_c d) f true (record_base d) end_off
  else import_backward d (h_init d cap) (d_c d) f true (record_base d) end_off.
