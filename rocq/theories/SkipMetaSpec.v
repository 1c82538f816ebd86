(** What opening, closing, clearing, rebuilding and crashing of a skip database should do, and the calls on the model. *)
From Coq Require Import List NArith ZArith Bool Lia Arith.
Import ListNotations.
From Verif Require Import Bytes BytesOrder CodecModel StatusModel FlatModel DbmModel SkipModel SkipLayout SkipSync SkipDb SkipProps SkipMetaModel.
Open Scope N_scope.

(** * The calls *)
Inductive mop :=
  | MDo (t : Z) (o : op)
  | MClear (t : Z)
  | MRebuild (t a b c : Z)  (* the offset width, the step unit and the maximum level *)
  | MSetType (n : N)
  | MSetOpaque (b : bytes)
  | MInfo  (* IsWritable, IsHealthy, IsAutoRestored, GetDatabaseType, GetOpaqueMetadata *)
  | MReopen (t1 t2 : Z) (writable : bool) (tn : tuning)  (* Close, then Open of the same path *)
  | MCrash (t : Z) (pad : nat) (writable : bool) (tn : tuning)  (* the process is killed between two calls, the file may have got zeros at its end, then Open *)
  | MTorn (t : Z) (n : nat) (tn : tuning).  (* the same, and of the file only the first [n] bytes are left *)
Inductive mout := MOut (x : hout) | MFail (c : code) | MMeta (w h a : bool) (ty : N) (o : bytes).
Definition is_update (o : op) : bool := match o with OInsert _ _ | OSync _ | ORevert | OMerge _ => true | OProcess _ _ w => w | OReads _ | OCount => false end.
Definition on_disk (m : mdb) : bytes := if m_writable m then d_file (m_d m) else m_orig m.
Definition info (m : mdb) : mout := MMeta (m_writable m) (m_healthy m) (m_auto m) (sh_type (m_h m)) (sh_opaque (m_h m)).
Definition do_mop (ver : N * N) (o : mop) (m : mdb) : sres (mout * mdb) :=
  match o with
  | MDo t o =>
      if is_update o && negb (m_writable m && m_healthy m) then SOk (MFail PRECONDITION_ERROR, m)
      else match o with
           | OSync red => let* m1 := m_sync t red m in SOk (MOut HNone, m1)
           | _ => let* (x, d) := do_op (m_g m) o (m_d m) in SOk (MOut x, with_d m d)
           end
  | MClear t => if m_writable m then let* m1 := m_clear t m in SOk (MOut HNone, m1) else SOk (MFail PRECONDITION_ERROR, m)
  | MRebuild t a b c => if m_writable m then let* m1 := m_rebuild ver t a b c m in SOk (MOut HNone, m1) else SOk (MFail PRECONDITION_ERROR, m)
  | MSetType n => if m_writable m then SOk (MOut HNone, set_type n m) else SOk (MFail PRECONDITION_ERROR, m)
  | MSetOpaque b => if m_writable m then SOk (MOut HNone, set_opaque b m) else SOk (MFail PRECONDITION_ERROR, m)
  | MInfo => SOk (info m, m)
  | MReopen t1 t2 w tn => let* f := m_close t1 m in let* m1 := m_open ver t2 w tn f in SOk (info m1, m1)
  | MCrash t pad w tn => let* m1 := m_open ver t w tn (on_disk m ++ repeat 0 pad) in SOk (info m1, m1)
  | MTorn t n tn => let* m1 := m_open ver t true tn (firstn n (on_disk m)) in SOk (info m1, m1)
  end.
Fixpoint do_mops (ver : N * N) (os : list mop) (m : mdb) : sres (list mout * mdb) :=
  match os with [] => SOk ([], m) | o :: os' => let* (x, m1) := do_mop ver o m in let* (xs, m2) := do_mops ver os' m1 in SOk (x :: xs, m2) end.
Definition run (ver : N * N) (t : Z) (tn : tuning) (os : list mop) : sres (list mout * mdb) := let* m := m_open ver t true tn [] in do_mops ver os m.

(** * The specification *)
(** What is on the disk: the parameters, the records, whether the file says that it was closed, the type and the 64 bytes of opaque metadata. *)
Record disk := mkK { k_p : sp; k_recs : list krec; k_flag : bool; k_type : N; k_opaque : bytes }.
(** An open database: the parameters; the records and the events since the synchronization, as for C18; writable, healthy, automatically restored; whether the
    file will say that it was closed; the type and the opaque metadata; and what is on the disk. *)
Record sess := mkS { s_g : scfg; s_x : hst; s_w : bool; s_h : bool; s_a : bool; s_flag : bool; s_type : N; s_opaque : bytes; s_disk : disk }.
Definition pad64 (o : bytes) : bytes := firstn 64 (o ++ repeat 0 64).
Definition restoring (tn : tuning) : bool := match t_mode tn with RReadOnly => false | _ => true end.
Definition spec_open (w : bool) (tn : tuning) (k : disk) : sess :=
  let auto := w && negb (k_flag k) && restoring tn in
  let healthy := k_flag k || auto in
  mkS (tuned_cfg tn (k_p k)) (mkH (k_recs k) [] []) w healthy auto healthy (k_type k) (k_opaque k)
      (if w && healthy then mkK (k_p k) (k_recs k) false (k_type k) (k_opaque k) else k).
Definition with_p (g : scfg) (p : sp) : scfg := mkCfg p (g_mem g) (g_inorder g) (g_cap g).
(** The records that Close leaves. *)
Definition settled (s : sess) : list krec := merged None (all_events (s_x s)).
(** The records that are whole in the first [n] bytes of the file. *)
Definition whole_part (p : sp) (n : nat) (l : list krec) : list krec := firstn (length (filter (fun i => off_of p l i <=? N.of_nat n) (seq 1 (length l)))) l.
Definition sinfo (s : sess) : mout := MMeta (s_w s) (s_h s) (s_a s) (s_type s) (s_opaque s).
Definition spec_mop (o : mop) (s : sess) : mout * sess :=
  let g := s_g s in
  let alive := s_w s && s_h s in
  match o with
  | MDo _ o =>
      if is_update o && negb alive then (MFail PRECONDITION_ERROR, s)
      else let '(r, x) := spec_op (g_inorder g) o (s_x s) in
           (MOut r, mkS g x (s_w s) (s_h s) (s_a s) (s_flag s) (s_type s) (s_opaque s)
              (match o with OSync _ => mkK (g_sp g) (x_old x) false (s_type s) (pad64 (s_opaque s)) | _ => s_disk s end))
  | MClear _ => if s_w s then (MOut HNone, mkS g (mkH [] [] []) (s_w s) (s_h s) (s_a s) false (s_type s) (pad64 (s_opaque s)) (mkK (g_sp g) [] false (s_type s) (pad64 (s_opaque s)))) else (MFail PRECONDITION_ERROR, s)
  | MRebuild _ a b c =>
      let p := tuned_sp (ordered_tuning a b c) in
      if s_w s then (MOut HNone, mkS (with_p g p) (mkH (settled s) [] []) (s_w s) (s_h s) (s_a s) true (s_type s) (s_opaque s) (mkK p (settled s) false (s_type s) (pad64 (s_opaque s)))) else (MFail PRECONDITION_ERROR, s)
  | MSetType n => if s_w s then (MOut HNone, mkS g (s_x s) (s_w s) (s_h s) (s_a s) (s_flag s) n (s_opaque s) (s_disk s)) else (MFail PRECONDITION_ERROR, s)
  | MSetOpaque b => if s_w s then (MOut HNone, mkS g (s_x s) (s_w s) (s_h s) (s_a s) (s_flag s) (s_type s) b (s_disk s)) else (MFail PRECONDITION_ERROR, s)
  | MInfo => (sinfo s, s)
  | MReopen _ _ w tn =>
      let s' := spec_open w tn (if alive then mkK (g_sp g) (settled s) (s_flag s) (s_type s) (pad64 (s_opaque s)) else s_disk s) in (sinfo s', s')
  | MCrash _ _ w tn => let s' := spec_open w tn (s_disk s) in (sinfo s', s')
  | MTorn _ n tn =>
      let k := s_disk s in
      let s' := spec_open true tn (if off_of (k_p k) (k_recs k) (length (k_recs k)) <=? N.of_nat n then k else mkK (k_p k) (whole_part (k_p k) n (k_recs k)) false (k_type k) (k_opaque k)) in (sinfo s', s')
  end.
Fixpoint spec_mops (os : list mop) (s : sess) : list mout * sess :=
  match os with [] => ([], s) | o :: os' => let '(r, s1) := spec_mop o s in let '(rs, s2) := spec_mops os' s1 in (r :: rs, s2) end.
Definition spec_new (tn : tuning) : sess := spec_open true tn (mkK (tuned_sp tn) [] true 0 (repeat 0 64)).
(** What a call relies on: for changes what C18 relies on, and where the records are written anew, that they fit the file; Clear and Rebuild are not called on
    a database that is writable but not healthy; a torn file is opened with restoration, and has its metadata. *)
Definition mop_ok (o : mop) (s : sess) : Prop :=
  let g := s_g s in let x := s_x s in
  match o with
  | MDo _ o => is_update o && negb (s_w s && s_h s) = false -> op_ok g o x
  | MClear _ => s_w s = true -> s_h s = true /\ op_ok g (OSync None) x
  | MRebuild _ a b c => s_w s = true -> s_h s = true /\ op_ok g (OSync None) x /\ fits (tuned_sp (ordered_tuning a b c)) (settled s)
  | MSetType n => n < 2^32
  | MSetOpaque _ | MInfo | MCrash _ _ _ _ => True
  | MReopen _ _ _ _ => s_w s && s_h s = true -> op_ok g (OSync None) x
  | MTorn _ n tn => (128 <= n)%nat /\ match t_mode tn with RDefault | RSync => True | _ => False end
  end.
Fixpoint mops_ok (os : list mop) (s : sess) : Prop := match os with [] => True | o :: os' => mop_ok o s /\ mops_ok os' (snd (spec_mop o s)) end.
