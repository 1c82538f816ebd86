(** The metadata of the skip database file: opening, closing, clearing, rebuilding and restoring.

    Source: /repo/tkrzw_dbm_skip.cc:30-58 (constants), 212-401 (Open, Close), 673-712 (Clear), 714-844 (Rebuild), 864-890 (Synchronize),
    972-1010 (the database type and the opaque metadata), 1118-1177 (SaveMetadata, LoadMetadata), 1194-1213 (CheckZeroRegion),
    2062-2102 (ReadMetadata), 2104-2193 (RestoreDatabase).
    Simplified: files are byte lists, and errors of the operating system, locks, direct I/O and update logging are left out, as in SkipModel.v; the wall
    clock and the version of the package are arguments; cyclic_magic_ is not bounded to 32 bits; what a failed call leaves behind is not
    modelled.  The records are those of SkipModel.v. *)
From Coq Require Import List NArith ZArith Bool Lia Arith.
Import ListNotations.
From Verif Require Import Bytes BytesOrder CodecModel StatusModel FlatModel DbmModel SkipModel.
From Verif Require HashMetaModel.
Open Scope N_scope.

(** META_MAGIC_DATA "TkrzwSDB\n", tkrzw_dbm_skip.cc:31. *)
Definition META_MAGIC : bytes := [84; 107; 114; 122; 119; 83; 68; 66; 10].
(** The conversions between 64-bit integers and bytes, as for the hash database. *)
Definition u64 := HashMetaModel.u64.
Definition i64 := HashMetaModel.i64.
Definition fld := HashMetaModel.fld.

(** The members of SkipDBMImpl besides those of SkipModel.v, tkrzw_dbm_skip.cc:145-161. *)
Record shdr := mkSH { sh_cyc : Z; sh_major : N; sh_minor : N; sh_closure : N; sh_fsize : Z; sh_time : Z; sh_type : N; sh_opaque : bytes }.

(** The bytes that SaveMetadata writes, tkrzw_dbm_skip.cc:1120-1142, for cyclic_magic_ already incremented. *)
Definition meta_bytes (p : sp) (num : nat) (eff : N) (h : shdr) (finish : bool) : bytes :=
  let cyc := write_fix 1 (u64 (sh_cyc h)) in
  META_MAGIC ++ cyc ++ write_fix 1 (sh_major h) ++ write_fix 1 (sh_minor h) ++
  write_fix 1 (N.of_nat (ow p)) ++ write_fix 1 (N.of_nat (step p)) ++ write_fix 1 (N.of_nat (maxl p)) ++
  write_fix 1 (if negb (N.land (sh_closure h) 1 =? 0) && finish then 1 else 0) ++ repeat 0 8 ++
  write_fix 8 (N.of_nat num) ++ write_fix 8 eff ++ write_fix 8 (u64 (sh_fsize h)) ++ write_fix 8 (u64 (sh_time h)) ++
  write_fix 4 (sh_type h) ++ [0; 0] ++
  (let o := firstn 64 (sh_opaque h) in o ++ repeat 0 (64 - length o)) ++ [0] ++ cyc.

(** What ReadMetadata gives, tkrzw_dbm_skip.cc:2062-2102; the number of records and the size of data as they are in the file. *)
Record smeta := mkSM { sm_p : sp; sm_num : Z; sm_eff : Z; sm_h : shdr }.
Definition read_meta (f : bytes) : option smeta :=
  if blen f <? 128 then None
  else if negb (beqb (firstn 9 f) META_MAGIC) then None
  else
    let front := fld f 9 1 in
    Some (mkSM (mkSP (N.to_nat (fld f 12 1)) (N.to_nat (fld f 13 1)) (N.to_nat (fld f 14 1))) (i64 (fld f 24 8)) (i64 (fld f 32 8))
      (mkSH (if front =? fld f 127 1 then Z.of_N front else (-1)%Z) (fld f 10 1) (fld f 11 1) (fld f 15 1)
            (i64 (fld f 40 8)) (i64 (fld f 48 8)) (fld f 56 4) (firstn 64 (skipn 62 f)))).
(** LoadMetadata, tkrzw_dbm_skip.cc:1145-1177. *)
Definition load (f : bytes) : sres smeta :=
  match read_meta f with
  | None => SErr BROKEN_DATA_ERROR
  | Some m =>
      let h := sm_h m in let p := sm_p m in
      if ((sh_major h <? 1) && (sh_minor h <? 1)) || (Nat.ltb (ow p) 3 || Nat.ltb 6 (ow p)) || (Nat.ltb (step p) 2 || Nat.ltb 64 (step p)) ||
         (Nat.ltb (maxl p) 1 || Nat.ltb 32 (maxl p)) || (sm_num m <? 0)%Z || (sm_eff m <? 0)%Z || (sh_fsize h <? 128)%Z
      then SErr BROKEN_DATA_ERROR else SOk m
  end.

(** TuningParameters, tkrzw_dbm_skip.h:198-243, and how Open takes them, tkrzw_dbm_skip.cc:219-240. *)
Inductive rmode := RDefault | RSync | RReadOnly | RNoop.
Record tuning := mkT { t_ow : Z; t_step : Z; t_maxl : Z; t_mem : Z; t_order : bool; t_cap : Z; t_mode : rmode }.
Definition clamp (lo hi dflt x : Z) : Z := if (x <? 0)%Z then dflt else Z.min (Z.max x lo) hi.
Definition tuned_sp (t : tuning) : sp := mkSP (Z.to_nat (clamp 3 6 4 (t_ow t))) (Z.to_nat (clamp 2 64 4 (t_step t))) (Z.to_nat (clamp 1 32 14 (t_maxl t))).
Definition tuned_mem (t : tuning) : N := Z.to_N (clamp 1024 8589934592 268435456 (t_mem t)).
(** Simplified: max_cached_records_ keeps its value over Close if the parameter is not positive; here it is the default then. *)
Definition tuned_cap (t : tuning) : nat := Z.to_nat (if (t_cap t <=? 0)%Z then 65536 else Z.min (Z.max (t_cap t) 1) 16777216).
Definition tuned_cfg (t : tuning) (p : sp) : scfg := mkCfg p (tuned_mem t) (t_order t) (tuned_cap t).

(** A database that is open.  [m_orig] is the file as it was opened: for a database that is not written, it stays on the disk. *)
Record mdb := mkM { m_g : scfg; m_d : sdb; m_h : shdr; m_writable : bool; m_healthy : bool; m_auto : bool; m_orig : bytes }.
Definition with_d (m : mdb) (d : sdb) : mdb := mkM (m_g m) d (m_h m) (m_writable m) (m_healthy m) (m_auto m) (m_orig m).
Definition with_h (m : mdb) (h : shdr) : mdb := mkM (m_g m) (m_d m) h (m_writable m) (m_healthy m) (m_auto m) (m_orig m).
Definition with_file (d : sdb) (f : bytes) : sdb :=
  mkDB f (d_num d) (d_eff d) (d_old_num d) (d_old_eff d) (d_removed d) (d_updated d) (d_sorted d) (d_idx d) (d_past d) (d_sorter d) (d_cache d).
Definition next_cyc (h : shdr) : shdr := mkSH (sh_cyc h + 1) (sh_major h) (sh_minor h) (sh_closure h) (sh_fsize h) (sh_time h) (sh_type h) (sh_opaque h).
(** SaveMetadata, tkrzw_dbm_skip.cc:1118-1143. *)
Definition save (finish : bool) (m : mdb) : mdb :=
  let h := next_cyc (m_h m) in
  let d := m_d m in
  with_d (with_h m h) (with_file d (pwrite (d_file d) 0 (meta_bytes (g_sp (m_g m)) (d_num d) (d_eff d) h finish))).
(** file_size_ and timestamp_. *)
Definition stamp (t : Z) (m : mdb) : mdb :=
  let h := m_h m in with_h m (mkSH (sh_cyc h) (sh_major h) (sh_minor h) (sh_closure h) (Z.of_N (blen (d_file (m_d m)))) t (sh_type h) (sh_opaque h)).
(** PrepareStorage and a new cache, e.g. tkrzw_dbm_skip.cc:887-888. *)
Definition fresh (m : mdb) : mdb :=
  let d := prepare (m_g m) (m_d m) in with_d m (set_cache d (cache_new (step (g_sp (m_g m))) (g_cap (m_g m)) (d_num d))).
(** FinishStorage with its metadata, tkrzw_dbm_skip.cc:1259-1261, 1355-1357. *)
Definition m_finish (t : Z) (red : reducer) (m : mdb) : sres mdb :=
  let* d := finish (m_g m) red (m_d m) in SOk (save true (stamp t (with_d m d))).
(** DiscardStorage, tkrzw_dbm_skip.cc:1382-1396. *)
Definition discard (d : sdb) : sdb :=
  mkDB (d_file d) (d_old_num d) (d_old_eff d) (d_old_num d) (d_old_eff d) (d_removed d) false None (d_idx d) [] so_new (d_cache d).

(** Synchronize, tkrzw_dbm_skip.cc:864-890. *)
Definition m_sync (t : Z) (red : reducer) (m : mdb) : sres mdb := let* m1 := m_finish t red m in SOk (fresh (save false m1)).
(** Close, tkrzw_dbm_skip.cc:356-378: the file that is left. *)
Definition m_close (t : Z) (m : mdb) : sres bytes :=
  if m_writable m && m_healthy m then
    if d_updated (m_d m) then let* m1 := m_finish t None m in SOk (d_file (m_d m1))
    else SOk (d_file (m_d (save true (stamp t (with_d m (discard (m_d m)))))))
  else SOk (if m_writable m then d_file (m_d m) else m_orig m).
(** CheckZeroRegion, tkrzw_dbm_skip.cc:1194-1213: at most 128 KiB are looked at. *)
Definition zero_region (f : bytes) (off : N) : bool := forallb (fun b => b =? 0) (firstn (N.to_nat 131072) (skipn (N.to_nat off) f)).

(** A database that takes what LoadMetadata read: the members that are set by it, tkrzw_dbm_skip.cc:1146-1151. *)
Definition loaded (tn : tuning) (s : smeta) (f : bytes) (writable healthy auto : bool) (orig : bytes) : mdb :=
  let n := Z.to_nat (sm_num s) in
  let e := Z.to_N (sm_eff s) in
  mkM (tuned_cfg tn (sm_p s)) (mkDB f n e 0 0 false false None 0 [] so_new (cache_new (step (sm_p s)) (tuned_cap tn) n)) (sm_h s) writable healthy auto orig.
(** The metadata of a new file, tkrzw_dbm_skip.cc:249-263. *)
Definition new_file (ver : N * N) (t : Z) (tn : tuning) : bytes :=
  meta_bytes (tuned_sp tn) 0 0 (mkSH 1 (fst ver) (snd ver) 1 128 t 0 []) true.
Definition INT64MAX : Z := 9223372036854775807.
Definition with_closure (h : shdr) (c : N) : shdr := mkSH (sh_cyc h) (sh_major h) (sh_minor h) c (sh_fsize h) (sh_time h) (sh_type h) (sh_opaque h).
Definition with_fsize (h : shdr) (z : Z) : shdr := mkSH (sh_cyc h) (sh_major h) (sh_minor h) (sh_closure h) z (sh_time h) (sh_type h) (sh_opaque h).
(** Open of a database object not opened before, tkrzw_dbm_skip.cc:212-354; the bytes of the file, none for a new or truncated one.  [restore] is
    RestoreDatabase, from the old file to the new one. *)
Definition m_open_with (restore : Z -> bytes -> sres bytes) (ver : N * N) (t : Z) (writable : bool) (tn : tuning) (f0 : bytes) : sres mdb :=
  let f := if writable && (blen f0 <? 1) then new_file ver t tn else f0 in
  let* s0 := load f in
  let h0 := sm_h s0 in
  let s := mkSM (sm_p s0) (sm_num s0) (sm_eff s0) (if (sh_cyc h0 <? 0)%Z then with_fsize h0 INT64MAX else h0) in
  let size := sh_fsize (sm_h s) in
  let closed := negb (N.land (sh_closure h0) 1 =? 0) in
  let act := Z.of_N (blen f) in
  let '(healthy, invalid, f1) :=
    if (size =? act)%Z then (closed, false, f)
    else if (act <? size)%Z then (false, true, f)
    else if zero_region f (Z.to_N size) then (closed, false, firstn (Z.to_nat size) f)
    else (false, true, f) in
  let* m :=
    (if writable && negb healthy && match t_mode tn with RReadOnly => false | _ => true end then
       if invalid && match t_mode tn with RNoop => false | _ => true end then
         let* f2 := restore t f1 in let* s2 := load f2 in SOk (loaded tn s2 f2 true true true f)
       else SOk (loaded tn (mkSM (sm_p s) (sm_num s) (sm_eff s) (with_closure (sm_h s) (N.lor (sh_closure h0) 1))) f1 true true true f)
     else SOk (loaded tn s f1 writable healthy false f)) in
  SOk (if m_writable m && m_healthy m then fresh (save false m) else m).

(** The loop over all records of a file, tkrzw_dbm_skip.cc:781-807, 2166-2188: the records up to the end or to the first that cannot be read, and whether
    all could. *)
Fixpoint scan (fuel : nat) (p : sp) (f : bytes) (off : N) (idx : nat) : sres (list (bytes * bytes) * option code) :=
  match fuel with
  | O => SHang
  | S fu =>
      match skip_next p f off idx with
      | SOk (None, _) => SOk ([], None)
      | SOk (Some kv, SSkip _ _ off' idx') => let* (l, e) := scan fu p f off' idx' in SOk (kv :: l, e)
      | SOk (Some _, SFlat _ _) => SUb
      | SErr c => SOk ([], Some c)
      | SUb => SUb
      | SHang => SHang
      end
  end.
(** Set on a new database for each record, tkrzw_dbm_skip.cc:798-802, 2180-2183. *)
Fixpoint insert_all (g : scfg) (l : list (bytes * bytes)) (d : sdb) : sres sdb :=
  match l with [] => SOk d | (k, v) :: l' => let* d1 := insert g k (ASet v) d in insert_all g l' d1 end.
(** A new file with the records: Open with insert_in_order, Set for each, Close, tkrzw_dbm_skip.cc:757-812, 2145-2191. *)
Definition ordered_tuning (a b c : Z) : tuning := mkT a b c (-1) true (-1) RDefault.
Definition write_new (ver : N * N) (t : Z) (tn : tuning) (ty : N) (opq : bytes) (l : list (bytes * bytes)) : sres bytes :=
  let* m := m_open_with (fun _ _ => SHang) ver t true tn [] in
  let h := m_h m in
  let m1 := with_h m (mkSH (sh_cyc h) (sh_major h) (sh_minor h) (sh_closure h) (sh_fsize h) (sh_time h) ty opq) in
  let* d := insert_all (m_g m1) l (m_d m1) in
  m_close t (with_d m1 d).
(** RestoreDatabase, tkrzw_dbm_skip.cc:2104-2193; the new file does not exist before.  Undefined: the remainder by a step unit of zero,
    tkrzw_dbm_skip_impl.cc:71. *)
Definition restore (ver : N * N) (t : Z) (f : bytes) : sres bytes :=
  if blen f <? 128 then SErr BROKEN_DATA_ERROR
  else
    let '(p, tn, ty, opq) :=
      match read_meta f with
      | Some s =>
          let p := sm_p s in
          (p, if (sh_cyc (sm_h s) <? 0)%Z then ordered_tuning (-1) (-1) (-1) else ordered_tuning (Z.of_nat (ow p)) (Z.of_nat (step p)) (Z.of_nat (maxl p)),
           sh_type (sm_h s), sh_opaque (sm_h s))
      | None => (mkSP 0 0 0, ordered_tuning (-1) (-1) (-1), 0, [])
      end in
    if Nat.eqb (step p) 0 && negb (Nat.eqb (maxl p) 0) && (128 <? blen f) then SUb
    else let* (l, _) := scan (S (length f)) p f 128 0 in write_new ver t tn ty opq l.
Definition m_open (ver : N * N) := m_open_with (restore ver) ver.

(** Clear, tkrzw_dbm_skip.cc:673-712.  The second test of updated_ (694-699) never holds, as FinishStorage cleared it. *)
Definition m_clear (t : Z) (m : mdb) : sres mdb :=
  let* m1 := (if d_updated (m_d m) then m_finish t None m else SOk m) in
  let d := m_d m1 in
  let m2 := stamp t (with_d m1 (mkDB (firstn 128 (d_file d)) 0 0 (d_old_num d) (d_old_eff d) (d_removed d) (d_updated d) (d_sorted d) (d_idx d) (d_past d) (d_sorter d) (d_cache d))) in
  let m3 := save false m2 in
  let* s := load (d_file (m_d m3)) in
  let g := m_g m3 in
  SOk (fresh (mkM (mkCfg (sm_p s) (g_mem g) (g_inorder g) (g_cap g)) (m_d m3) (sm_h s) (m_writable m3) (m_healthy m3) (m_auto m3) (m_orig m3))).
(** Rebuild, tkrzw_dbm_skip.cc:714-844.  [tn] has the offset width, the step unit and the maximum level that are chosen from the parameters or by estimation
    (728-756, with floating-point logarithms): any choice is considered here. *)
Definition m_rebuild (ver : N * N) (t : Z) (a b c : Z) (m : mdb) : sres mdb :=
  let* m1 := (if d_updated (m_d m) then m_finish t None m else SOk m) in
  let f := d_file (m_d m1) in
  let* (l, e) := scan (S (length f)) (g_sp (m_g m1)) f 128 0 in
  match e with
  | Some c => SErr c
  | None =>
      let* f2 := write_new ver t (ordered_tuning a b c) 0 (repeat 0 64) l in
      let* s := load f2 in
      let g := m_g m1 in let d := m_d m1 in let h := sm_h s in
      let m2 := mkM (mkCfg (sm_p s) (g_mem g) (g_inorder g) (g_cap g))
                    (mkDB f2 (Z.to_nat (sm_num s)) (Z.to_N (sm_eff s)) (d_old_num d) (d_old_eff d) (d_removed d) (d_updated d) (d_sorted d) (d_idx d) (d_past d) (d_sorter d) (d_cache d))
                    (mkSH (sh_cyc h) (sh_major h) (sh_minor h) (sh_closure h) (Z.of_N (blen f2)) (sh_time h) (sh_type (m_h m1)) (sh_opaque (m_h m1)))
                    (m_writable m1) (m_healthy m1) (m_auto m1) (m_orig m1) in
      SOk (fresh (save false m2))
  end.
(** SetDatabaseType and SetOpaqueMetadata, tkrzw_dbm_skip.cc:980-990, 1000-1010. *)
Definition set_type (n : N) (m : mdb) : mdb := let h := m_h m in with_h m (mkSH (sh_cyc h) (sh_major h) (sh_minor h) (sh_closure h) (sh_fsize h) (sh_time h) n (sh_opaque h)).
Definition set_opaque (o : bytes) (m : mdb) : mdb := let h := m_h m in with_h m (mkSH (sh_cyc h) (sh_major h) (sh_minor h) (sh_closure h) (sh_fsize h) (sh_time h) (sh_type h) o).
