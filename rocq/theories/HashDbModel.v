(** The hash database on its file: buckets, chains, free blocks and the record
    operation.
    Source: class HashDBMImpl, /repo/tkrzw_dbm_hash.cc:46-66 (layout),
    1351-1357 (SetRecordBase), 1383-1407 (InitializeBuckets), 1427-1655
    (ProcessImpl, GetBucketValue, SetBucketValue).
    Simplifications: no compressor; the update logger never fails (its calls
    are collected in [s_log]); counters are unbounded integers; the metadata
    area is treated in HashMetaModel.v; locking is treated in HashMutexModel.v
    (here one operation runs at a time). *)
From Verif Require Import Bytes MapSpec CodecModel FileModel HashUtilModel HashRecModel FbpModel.
Open Scope N_scope.

(** Parameters of an opened database: format, num_buckets_, update mode and
    min_read_size_. *)
Record hdb := mkhdb { d_c : hcfg; d_nb : N; d_inplace : bool; d_mrs : N }.

(** tkrzw_dbm_hash.cc:46-53. *)
Definition METADATA_SIZE : N := 128.
Definition FBP_SECTION_SIZE : N := 1008.
Definition RECORD_BASE_HEADER_SIZE : N := 16.
Definition RECORD_BASE_ALIGN : N := 4096.

(** SetRecordBase, tkrzw_dbm_hash.cc:1351-1357. *)
Definition record_base (d : hdb) : N :=
  align_num (METADATA_SIZE + d_nb d * N.of_nat (ow (d_c d)) + FBP_SECTION_SIZE + RECORD_BASE_HEADER_SIZE)
    (N.max RECORD_BASE_ALIGN (halign (d_c d))).

(** What a record processor answers (RecordProcessor::NOOP, REMOVE or a value,
    /repo/tkrzw_dbm.h:37-75) is [action] of MapSpec.v; the argument of a
    processor is None for ProcessEmpty and the value for ProcessFull. *)

(** Calls of the update logger. *)
Inductive ulop := LSet (k v : bytes) | LRemove (k : bytes).

Record hst := mkhst { s_file : file; s_fbp : fbpool; s_num : Z; s_eff : Z; s_log : list ulop }.

Inductive hstatus := HOk | HBroken | HUndefined | HNoFuel.

(** Result of a record operation: the state, the status and what the processor
    was called with (None if it was not called). *)
Record hres := mkhres { h_st : hst; h_status : hstatus; h_seen : option (option bytes) }.

(** GetBucketValue, tkrzw_dbm_hash.cc:1638-1647. *)
Definition get_bucket (d : hdb) (f : file) (b : N) : option N :=
  match file_read f (METADATA_SIZE + b * N.of_nat (ow (d_c d))) (N.of_nat (ow (d_c d))) with
  | Some bs => Some (N.shiftl (read_fix_bytes bs) (apow (d_c d)))
  | None => None
  end.

(** SetBucketValue, tkrzw_dbm_hash.cc:1649-1654. *)
Definition set_bucket (d : hdb) (f : file) (b v : N) : file :=
  file_write f (METADATA_SIZE + b * N.of_nat (ow (d_c d)))
    (write_fix (ow (d_c d)) (N.shiftr v (apow (d_c d)))).

(** The walk along a chain, tkrzw_dbm_hash.cc:1437-1447 and 1588-1592. *)
Inductive wres := WMiss | WHit (off parent : N) (m : hmeta) | WErr | WNoFuel.
Fixpoint walk (fuel : nat) (c : hcfg) (f : file) (key : bytes) (mrs cur parent : N) : wres :=
  match fuel with
  | O => WNoFuel
  | S fuel' =>
      if 0 <? cur then
        match read_meta c f cur mrs with
        | None => WErr
        | Some m => if beqb key (m_key m) then WHit cur parent m
                    else walk fuel' c f key mrs (m_child m) cur
        end
      else WMiss
  end.

Definition is_set_type (t : optype) : bool := match t with OpSet | OpAdd => true | _ => false end.

(** Placing a record: into a free block when updating in place, otherwise at
    the end of the file, tkrzw_dbm_hash.cc:1532-1553 and 1610-1626.  [t'] is the
    operation type used for a free block. *)
Definition place (d : hdb) (f : file) (p : fbpool) (t t' : optype) (key value : bytes) (child : N)
  : file * fbpool * N :=
  let r := set_data (d_c d) t 0 key value child in
  let '(r', off, p') :=
    if d_inplace d then
      match fbp_fetch p (r_whole r) with
      | Some (fb, p') => (set_data (d_c d) t' (fb_size fb) key value child, fb_off fb, p')
      | None => (r, 0, p)
      end
    else (r, 0, p) in
  if off =? 0 then
    let '(f', o) := file_append f (rec_bytes (d_c d) r') in (f', p', o)
  else (file_write f off (rec_bytes (d_c d) r'), p', off).

(** The VOID record put over a removed or moved record, tkrzw_dbm_hash.cc:1484
    and 1564. *)
Definition void_rec (c : hcfg) (size : N) : hrec := set_data c OpVoid size [] [] 0.

(** Pointing the predecessor in the chain to [v]. *)
Definition relink (d : hdb) (f : file) (b parent v : N) : file :=
  if 0 <? parent then write_child (d_c d) f parent v else set_bucket d f b v.

(** Counter updates, tkrzw_dbm_hash.cc:1572-1586. *)
Definition count_update (s_n s_e : Z) (key : bytes) (old_is_set : bool) (old_size : N) (a : action) : Z * Z :=
  match a with
  | ANoop => (s_n, s_e)
  | ARemove => if old_is_set then (s_n - 1, s_e - Z.of_N (blen key + old_size))%Z else (s_n, s_e)
  | ASet v => if old_is_set then (s_n, s_e + (Z.of_N (blen v) - Z.of_N old_size))%Z
              else (s_n + 1, s_e + Z.of_N (blen key + blen v))%Z
  end.

(** The branch of an existing record, tkrzw_dbm_hash.cc:1447-1587, with [a] the
    answer of the processor other than NOOP. *)
Definition update_found (d : hdb) (s : hst) (b top off parent : N) (m : hmeta) (key : bytes) (a : action)
  : option (file * fbpool) :=
  let c := d_c d in
  let f := s_file s in
  let old_is_set := is_set_type (m_type m) in
  let child := m_child m in
  let old_size := m_whole m in
  let nt := if old_is_set then OpSet else OpAdd in
  let insert_free f' p := match fbp_insert p (mkfb old_size off) with
                          | Some p' => Some (f', p')
                          | None => None
                          end in
  let first := match a with
    | ARemove => void_rec c old_size
    | ASet v => set_data c nt old_size key v child
    | ANoop => void_rec c old_size
    end in
  if d_inplace d && (r_whole first =? old_size) then
    match a with
    | ARemove =>
        let f1 := relink d f b parent child in
        let f2 := file_write f1 off (rec_bytes c first) in
        insert_free f2 (s_fbp s)
    | _ => Some (file_write f off (rec_bytes c first), s_fbp s)
    end
  else
    let new_child := if d_inplace d || (parent =? 0) then child else top in
    let '(f1, p1, noff) :=
      match a with
      | ASet v => place d f (s_fbp s) nt OpSet key v new_child
      | _ => place d f (s_fbp s) OpRemove OpRemove key [] new_child
      end in
    let f2 := if d_inplace d then relink d f1 b parent noff else set_bucket d f1 b noff in
    if d_inplace d then insert_free (file_write f2 off (rec_bytes c (void_rec c old_size))) p1
    else Some (f2, p1).

(** ProcessImpl, tkrzw_dbm_hash.cc:1427-1636. *)
Definition h_process (d : hdb) (s : hst) (key : bytes) (proc : processor) (readable writable : bool) : hres :=
  let c := d_c d in
  let f := s_file s in
  let b := primary_hash key (d_nb d) in
  match get_bucket d f b with
  | None => mkhres s HBroken None
  | Some top =>
      match walk (S (S (N.to_nat (fsize f)))) c f key (if readable then META_MIN_READ_SIZE else d_mrs d) top 0 with
      | WErr => mkhres s HBroken None
      | WNoFuel => mkhres s HNoFuel None
      | WHit off parent m =>
          let old_is_set := is_set_type (m_type m) in
          let old := if old_is_set then
                       if readable then
                         match meta_value f off m with Some v => Some (Some v) | None => None end
                       else Some (Some [])
                     else Some None in
          match old with
          | None => mkhres s HBroken None
          | Some seen =>
              let a := proc seen in
              match a, writable with
              | ANoop, _ | _, false => mkhres s HOk (Some seen)
              | _, true =>
                  let log := match a with ASet v => LSet key v | _ => LRemove key end in
                  match update_found d s b top off parent m key a with
                  | None => mkhres s HUndefined (Some seen)
                  | Some (f', p') =>
                      let '(n', e') := count_update (s_num s) (s_eff s) key old_is_set (m_vsz m) a in
                      mkhres (mkhst f' p' n' e' (s_log s ++ [log])) HOk (Some seen)
                  end
              end
          end
      | WMiss =>
          match proc None, writable with
          | ASet v, true =>
              let '(f1, p1, noff) := place d f (s_fbp s) OpAdd OpAdd key v top in
              let f2 := set_bucket d f1 b noff in
              let '(n', e') := count_update (s_num s) (s_eff s) key false 0 (ASet v) in
              mkhres (mkhst f2 p1 n' e' (s_log s ++ [LSet key v])) HOk (Some None)
          | _, _ => mkhres s HOk (Some None)
          end
      end
  end.

(** A fresh database: InitializeBuckets and the empty pool,
    tkrzw_dbm_hash.cc:1383-1407.  The content of the metadata and of the record
    header is irrelevant here and left zero. *)
Definition h_init (d : hdb) (fbp_cap : N) : hst :=
  mkhst (mkfile (fun _ => 0) (record_base d)) (mkfbp fbp_cap []) 0 0 [].

(** HashDBM::Get, Set (with and without overwriting) and Remove,
    tkrzw_dbm_hash.cc:2421-2452, with the processors RecordProcessorGet, Set and
    Remove of /repo/tkrzw_dbm.h:132-250 and no old value requested. *)
Definition proc_get : processor := fun _ => ANoop.
Definition proc_set (value : bytes) (overwrite : bool) : processor :=
  fun old => match old with Some _ => if overwrite then ASet value else ANoop | None => ASet value end.
Definition proc_remove : processor := fun old => match old with Some _ => ARemove | None => ANoop end.
Definition h_get (d : hdb) (s : hst) (key : bytes) : hres := h_process d s key proc_get true false.
Definition h_set (d : hdb) (s : hst) (key value : bytes) : hres :=
  h_process d s key (proc_set value true) false true.
Definition h_remove (d : hdb) (s : hst) (key : bytes) : hres := h_process d s key proc_remove false true.

(** Histories. *)
Fixpoint h_run (d : hdb) (s : hst) (ops : list hop) : hst * list (hstatus * option (option bytes)) :=
  match ops with
  | [] => (s, [])
  | o :: ops' =>
      let r := h_process d s (o_key o) (o_proc o) (o_readable o) (o_writable o) in
      let '(s', out) := h_run d (h_st r) ops' in
      (s', (h_status r, h_seen r) :: out)
  end.
