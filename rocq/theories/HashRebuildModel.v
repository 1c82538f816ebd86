(** Rebuilding a hash database while it is being updated.
    Source: HashDBMImpl::RebuildImpl, /repo/tkrzw_dbm_hash.cc:1656-1830.
    Simplifications: the new database starts from an empty one without a header,
    which is written when it is closed; renaming the new file over the old one
    makes its contents those of the path; the file operations do not fail; the number
    of catching-up rounds is not limited and a round may be small (the code stops
    after a number of rounds or when little is left, which is a special case).
    The updates running at the same time are given as histories between the
    points where RebuildImpl looks at the size of the file; what an import reads
    meanwhile is any file [view] holding at least the records up to that size. *)
From Verif Require Import Bytes MapSpec CodecModel FileModel HashUtilModel HashRecModel FbpModel HashDbModel
  HashRestoreModel HashMetaModel.
Open Scope N_scope.

(** The update mode set at tkrzw_dbm_hash.cc:1722-1724 and by
    SetUpdateModeAppending, tkrzw_dbm_hash.cc:971-982. *)
Definition as_appending (d : hdb) : hdb := mkhdb (d_c d) (d_nb d) false (d_mrs d).

(** The catching-up loop, tkrzw_dbm_hash.cc:1742-1761: [begin] is begin_offset,
    [t] the new database of parameters [d2].  Result: the old database, the new
    one and the new begin_offset, or None if an import failed. *)
Fixpoint rebuild_rounds (d d2 : hdb) (s t : hst) (begin : N) (rounds : list (list hop * file)) : option (hst * hst * N) :=
  match rounds with
  | [] => Some (s, t, begin)
  | (ops, view) :: rounds' =>
      let s1 := fst (h_run (as_appending d) s ops) in
      let end_offset := fsize (s_file s1) in
      match import_forward d2 t (d_c d) view false begin (Some end_offset) with
      | (t', ScanOk) => rebuild_rounds d d2 s1 t' end_offset rounds'
      | _ => None
      end
  end.

(** The first import into an empty database, tkrzw_dbm_hash.cc:1719-1733. *)
Definition rebuild_first (d d2 : hdb) (cap : N) (s : hst) (skip : bool) (view : file) : hst * scan_end :=
  let end0 := fsize (s_file s) in
  let t0 := h_init d2 cap in
  if d_inplace d then import_forward d2 t0 (d_c d) view skip (record_base d) (Some end0)
  else import_backward d2 t0 (d_c d) view skip (record_base d) (Some end0).

(** RebuildImpl: [d] and [s] are the old database, [d2] the parameters of the
    new one (always filled in place), [view0] what the first import reads,
    [rounds] the later ones, [last] the updates before the final exclusive
    section, and [appending] whether the new database shall be appending. *)
Definition rebuild (d d2 : hdb) (cap : N) (s : hst) (skip : bool) (view0 : file) (rounds : list (list hop * file))
  (last : list hop) (appending : bool) : option (hst * hdb * hst) :=
  match rebuild_first d d2 cap s skip view0 with
  | (t1, ScanOk) =>
      match rebuild_rounds d d2 s t1 (fsize (s_file s)) rounds with
      | Some (s2, t2, begin) =>
          let s3 := fst (h_run (as_appending d) s2 last) in
          let end_offset := fsize (s_file s3) in
          let d3 := if appending then as_appending d2 else d2 in
          if begin <? end_offset then
            match import_forward d2 t2 (d_c d) (s_file s3) false begin (Some end_offset) with
            | (t3, ScanOk) => Some (s3, d3, t3)
            | _ => None
            end
          else Some (s3, d3, t2)
      | None => None
      end
  | _ => None
  end.

(** The end of RebuildImpl, tkrzw_dbm_hash.cc:1780-1828: the new database is
    closed (at the time [time], with the members [x2]), its file put in place of
    the old one and opened with OpenImpl; the type and the opaque data are those
    of the old database ([x]).  [cap] and [mrs] are the capacity of the free block
    pool and min_read_size_ after the parameters were applied. *)
Definition rebuild_reopen (cap mrs : N) (x x2 : hmisc) (time : Z) (d3 : hdb) (t3 : hst) : option opened :=
  match h_open cap mrs (h_close d3 x2 t3 time) with
  | Some o =>
      let y := op_misc o in
      Some (mkopened (op_healthy o) (op_db o) (mkmisc (x_cyc y) (x_major y) (x_minor y) (x_closure y) (x_type x) (x_opaque x)) (op_st o))
  | None => None
  end.
