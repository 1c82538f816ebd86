(** Flat record files and text files of lines.  Source: /repo/tkrzw_file_util.cc
    (FileReader, FlatRecord, FlatRecordReader) and /repo/tkrzw_dbm_common_impl.cc
    (export and import).  A file is a byte list that does not change while it is
    read; File::Read fails with INFEASIBLE_ERROR beyond the end; writing and
    memory allocation succeed. *)
From Verif Require Import Bytes CodecModel StatusModel TextCodecModel.
Local Open Scope N_scope.

(** File::Read of [n] bytes. *)
Definition f_read (f : bytes) (off n : N) : option bytes :=
  if blen f <? off + n then None else Some (firstn (N.to_nat n) (skipn (N.to_nat off) f)).

(** * FlatRecord *)
(** RecordType, tkrzw_file_util.h:492-499: true is RECORD_METADATA. *)
Definition frec : Type := bool * bytes.
(** tkrzw_file_util.h:554-556 *)
Definition fmagic (meta : bool) : N := if meta then 254 else 255.
(** The bytes of FlatRecord::Write, tkrzw_file_util.cc:1279-1299. *)
Definition flat_write (r : frec) : bytes := fmagic (fst r) :: write_var (blen (snd r)) ++ snd r.

(** The part that all readers share: the magic byte and the size.  The result: the
    type, the size, the length of the header. *)
Definition flat_head (b : bytes) : option (bool * N * N) :=
  match b with
  | [] => None
  | m :: b' =>
      if (m =? 255) || (m =? 254) then
        match read_var b' with None => None | Some (n, step) => Some (m =? 254, n, 1 + step) end
      else None
  end.
(** FlatRecord::Read, tkrzw_file_util.cc:1208-1261: the status and, on success, the
    record and GetWholeSize. *)
Definition flat_read (f : bytes) (off : N) : code * option (frec * N) :=
  let max_read := N.min (blen f - off) (2^40) in
  if max_read <? 2 then (BROKEN_DATA_ERROR, None)
  else
    let n := N.min max_read 48 in
    match f_read f off n with
    | None => (INFEASIBLE_ERROR, None)
    | Some b =>
        match flat_head b with
        | None => (BROKEN_DATA_ERROR, None)
        | Some (t, size, h) =>
            if max_read <? size then (BROKEN_DATA_ERROR, None)
            else if size <=? n - h then (SUCCESS, Some ((t, firstn (N.to_nat size) (skipn (N.to_nat h) b)), h + size))
            else match f_read f (off + h) size with
                 | None => (INFEASIBLE_ERROR, None)
                 | Some d => (SUCCESS, Some ((t, d), h + size))
                 end
        end
    end.

(** * FlatRecordReader *)
(** offset_, the first data_size_ bytes of buffer_, index_ and buffer_size_,
    tkrzw_file_util.h:611-623. *)
Record fr := mkFr { fr_off : N; fr_buf : bytes; fr_idx : N; fr_size : N }.
(** The constructor, tkrzw_file_util.cc:1301-1309. *)
Definition fr_new (buffer_size : N) : fr := mkFr 0 [] 0 (if buffer_size <? 1 then 32768 else N.max buffer_size 8).
(** Reading a record from the buffer [b] (bytes from rp on) at [idx] in the buffer. *)
Inductive fres := FBad | FShort (n room : N) | FRec (r : frec) (used : N).
Definition from_buf (b : bytes) : fres :=
  match flat_head b with
  | None => FBad
  | Some (t, size, h) =>
      if size <=? blen b - h then FRec (t, firstn (N.to_nat size) (skipn (N.to_nat h) b)) (h + size) else FShort size (blen b - h)
  end.
(** From "int64_t file_size = 0" on, tkrzw_file_util.cc:1349-1430. *)
Definition fr_refill (f : bytes) (s : fr) : code * option frec * fr :=
  if blen f <=? fr_off s + 2 then (NOT_FOUND_ERROR, None, s)
  else
    let n := N.min (fr_size s) (blen f - fr_off s) in
    match f_read f (fr_off s) n with
    | None => (INFEASIBLE_ERROR, None, mkFr (fr_off s) (repeat 0 (N.to_nat n)) (fr_idx s) (fr_size s))
    | Some b =>
        match from_buf b with
        | FBad => (BROKEN_DATA_ERROR, None, mkFr (fr_off s) b (fr_idx s) (fr_size s))
        | FRec r used => (SUCCESS, Some r, mkFr (fr_off s + used) b used (fr_size s))
        | FShort size room =>
            let bs := fr_size s + (size - room) in
            match f_read f (fr_off s) bs with
            | None => (INFEASIBLE_ERROR, None, mkFr (fr_off s) [] 0 bs)
            | Some b2 =>
                match from_buf b2 with
                | FRec r used => (SUCCESS, Some r, mkFr (fr_off s + used) [] 0 bs)
                | _ => (BROKEN_DATA_ERROR, None, mkFr (fr_off s) [] 0 bs)
                end
            end
        end
    end.
(** FlatRecordReader::Read, tkrzw_file_util.cc:1315-1430. *)
Definition fr_read (f : bytes) (s : fr) : code * option frec * fr :=
  if fr_idx s + 9 <=? blen (fr_buf s) then
    match from_buf (skipn (N.to_nat (fr_idx s)) (fr_buf s)) with
    | FBad => (BROKEN_DATA_ERROR, None, s)
    | FRec r used => (SUCCESS, Some r, mkFr (fr_off s + used) (fr_buf s) (fr_idx s + used) (fr_size s))
    | FShort _ _ => fr_refill f s
    end
  else fr_refill f s.

(** Reading until a status other than SUCCESS. *)
Fixpoint fr_all (fuel : nat) (f : bytes) (s : fr) : option (code * list frec) :=
  match fuel with
  | O => None
  | S fu =>
      match fr_read f s with
      | (SUCCESS, Some r, s') => match fr_all fu f s' with Some (c, l) => Some (c, r :: l) | None => None end
      | (c, _, _) => Some (c, [])
      end
  end.

(** * Export and import *)
(** ExportDBMToFlatRecords, tkrzw_dbm_common_impl.cc:380-406: [l] is what ProcessEach
    visits. *)
Definition flat_export (l : list (bytes * bytes)) : bytes := flat_map (fun kv => flat_write (false, fst kv) ++ flat_write (false, snd kv)) l.
(** ExportDBMKeysToFlatRecords, tkrzw_dbm_common_impl.cc:450-475. *)
Definition flat_export_keys (l : list (bytes * bytes)) : bytes := flat_map (fun kv => flat_write (false, fst kv)) l.
(** ExportRecords of TinyDBM, BabyDBM and CacheDBM, e.g. tkrzw_dbm_tiny.cc:601-620:
    the same after a metadata record. *)
Definition flat_save (meta : bytes) (l : list (bytes * bytes)) : bytes := flat_write (true, meta) ++ flat_export l.
Section Target.
  Variable T : Type.
  Variable t_set : T -> bytes -> bytes -> code * T.
  (** ImportDBMFromFlatRecords, tkrzw_dbm_common_impl.cc:408-448, and ImportRecords,
      tkrzw_dbm_tiny.cc:539-587 (which also takes the timestamp from the metadata). *)
  Fixpoint flat_import (fuel : nat) (f : bytes) (s : fr) (t : T) : option (code * T) :=
    match fuel with
    | O => None
    | S fu =>
        match fr_read f s with
        | (SUCCESS, Some (true, _), s1) => flat_import fu f s1 t
        | (SUCCESS, Some (false, k), s1) =>
            match fr_read f s1 with
            | (SUCCESS, Some (true, _), _) => Some (BROKEN_DATA_ERROR, t)
            | (SUCCESS, Some (false, v), s2) =>
                let '(c, t') := t_set t k v in if code_eqb c SUCCESS then flat_import fu f s2 t' else Some (c, t')
            | (c, _, _) => Some (if code_eqb c NOT_FOUND_ERROR then BROKEN_DATA_ERROR else c, t)
            end
        | (c, _, _) => Some (if code_eqb c NOT_FOUND_ERROR then SUCCESS else c, t)
        end
    end.
End Target.
Arguments flat_import {T}.

(** * Lines *)
(** FileReader, tkrzw_file_util.h:473-484: offset_, the unread part of the buffer. *)
Record lr := mkLr { lr_off : N; lr_buf : bytes }.
Definition lr_new : lr := mkLr 0 [].
(** The inner loop of ReadLine, tkrzw_file_util.cc:1166-1172, with max_size = 0:
    what is appended to *str, and the unread rest if a newline came. *)
Fixpoint take_line (b : bytes) : bytes * option bytes :=
  match b with
  | [] => ([], None)
  | c :: b' => if c =? 10 then ([c], Some b') else let '(l, r) := take_line b' in (c :: l, r)
  end.
(** FileReader::ReadLine, tkrzw_file_util.cc:1162-1197.  Fuel: the number of
    refills.  None: out of fuel. *)
Fixpoint read_line (fuel : nat) (f : bytes) (s : lr) (str : bytes) : option (code * bytes * lr) :=
  match take_line (lr_buf s) with
  | (l, Some r) => Some (SUCCESS, str ++ l, mkLr (lr_off s) r)
  | (l, None) =>
      let str := str ++ l in
      match fuel with
      | O => None
      | S fu =>
          let n := N.min (blen f - lr_off s) 8192 in
          if n <? 1 then Some (match str with [] => NOT_FOUND_ERROR | _ => SUCCESS end, str, mkLr (lr_off s) [])
          else match f_read f (lr_off s) n with
               | None => Some (INFEASIBLE_ERROR, str, mkLr (lr_off s) [])
               | Some b => read_line fu f (mkLr (lr_off s + n) b) str
               end
      end
  end.

(** StrTrimForTSV, tkrzw_str_util.cc:1503-1516. *)
Definition trim_tsv (keep_tab : bool) (s : bytes) : bytes :=
  map (fun c => if (c <=? 32) || (c =? 127) then if (c =? 9) && keep_tab then c else 32 else c) s.
(** ExportDBMToTSV, tkrzw_dbm_common_impl.cc:477-505. *)
Definition tsv_export (escape : bool) (l : list (bytes * bytes)) : bytes :=
  flat_map (fun kv => (if escape then escape_c false (fst kv) else trim_tsv false (fst kv)) ++ [9] ++
                      (if escape then escape_c false (snd kv) else trim_tsv true (snd kv)) ++ [10]) l.
(** ExportDBMKeysAsLines, tkrzw_dbm_common_impl.cc:542-566. *)
Definition keys_lines (l : list (bytes * bytes)) : bytes := flat_map (fun kv => fst kv ++ [10]) l.
(** The content of a line, tkrzw_dbm_common_impl.cc:519-520. *)
Definition content_of (line : bytes) : bytes := match rev line with 10 :: r => rev r | _ => line end.
(** content.find('\t') and the two substrings. *)
Fixpoint split_tab (s : bytes) : option (bytes * bytes) :=
  match s with
  | [] => None
  | c :: s' => if c =? 9 then Some ([], s') else match split_tab s' with Some (a, b) => Some (c :: a, b) | None => None end
  end.
Section Tsv.
  Variable T : Type.
  Variable t_set : T -> bytes -> bytes -> code * T.
  (** ImportDBMFromTSV, tkrzw_dbm_common_impl.cc:507-540. *)
  Fixpoint tsv_import (fuel : nat) (unescape : bool) (f : bytes) (s : lr) (t : T) : option (code * T) :=
    match fuel with
    | O => None
    | S fu =>
        match read_line (S (length f)) f s [] with
        | None => None
        | Some (SUCCESS, line, s') =>
            match split_tab (content_of line) with
            | None => tsv_import fu unescape f s' t
            | Some (k, v) =>
                let '(c, t') := t_set t (if unescape then unescape_c k else k) (if unescape then unescape_c v else v) in
                if code_eqb c SUCCESS then tsv_import fu unescape f s' t' else Some (c, t')
            end
        | Some (c, _, _) => Some (if code_eqb c NOT_FOUND_ERROR then SUCCESS else c, t)
        end
    end.
End Tsv.
Arguments tsv_import {T}.
