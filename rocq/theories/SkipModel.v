(** SkipDBM: records with skip pointers, search, iterators, the record sorter and synchronization.

    Source: /repo/tkrzw_dbm_skip_impl.cc, /repo/tkrzw_dbm_skip_impl.h and /repo/tkrzw_dbm_skip.cc.
    Files are byte lists; errors of the operating system, locks, direct I/O, update logging and the names of
    files are left out. *)
From Coq Require Import List NArith ZArith Bool Lia Arith.
Import ListNotations.
From Verif Require Import Bytes BytesOrder CodecModel StatusModel StrSerialModel FlatModel DbmModel.
From Verif Require TreePageModel.
Open Scope N_scope.

(** What a call gives: a value, an error status, undefined behaviour, or no end. *)
Inductive sres (A : Type) := SOk (a : A) | SErr (c : code) | SUb | SHang.
Arguments SOk {A}. Arguments SErr {A}. Arguments SUb {A}. Arguments SHang {A}.
Definition sbind {A B} (x : sres A) (f : A -> sres B) : sres B :=
  match x with SOk a => f a | SErr c => SErr c | SUb => SUb | SHang => SHang end.
Notation "'let*' x := a 'in' b" := (sbind a (fun x => b)) (at level 200, x pattern, a at level 100, b at level 200).

(** offset_width_, step_unit_ and max_level_. *)
Record sp := mkSP { ow : nat; step : nat; maxl : nat }.

(** * Records *)
(** The loop on the index, tkrzw_dbm_skip_impl.cc:69-74, 199-204, 245-249. *)
Fixpoint level_of (u maxl idx : nat) : nat :=
  match maxl with
  | O => O
  | S m => if Nat.eqb (idx mod u) 0 then S (level_of u m (idx / u)) else O
  end.
Definition lev (p : sp) (idx : nat) : nat := level_of (step p) (maxl p) idx.

(** SkipRecord, tkrzw_dbm_skip_impl.h:198-230.  [r_val] is None if value_ptr_ is nullptr; value_size_ is [r_vsize]. *)
Record srec := mkR { r_lev : nat; r_idx : nat; r_off : N; r_skips : list N; r_key : bytes; r_vsize : N; r_val : option bytes }.
(** header_size and whole_size_, tkrzw_dbm_skip_impl.cc:128-130, 483-486. *)
Definition head_size (p : sp) (lv : nat) (ks vs : N) : N := 1 + N.of_nat (ow p * lv) + size_var ks + size_var vs.
Definition whole (p : sp) (r : srec) : N := head_size p (r_lev r) (blen (r_key r)) (r_vsize r) + blen (r_key r) + r_vsize r.

(** The loop over the skip offsets, tkrzw_dbm_skip_impl.cc:100-104. *)
Fixpoint read_skips (w lv : nat) (l : bytes) : list N :=
  match lv with O => [] | S n => read_fix w l :: read_skips w n (skipn w l) end.
Definition i32 := TreePageModel.i32.

(** ReadBody, tkrzw_dbm_skip_impl.cc:156-167: the key and the value. *)
Definition read_body (f : bytes) (body : N) (ks vs : N) : sres (bytes * bytes) :=
  match f_read f body (ks + vs) with
  | None => SErr INFEASIBLE_ERROR
  | Some b => SOk (firstn (N.to_nat ks) b, skipn (N.to_nat ks) b)
  end.

(** ReadMetadataKey, tkrzw_dbm_skip_impl.cc:68-154.  Undefined: bytes read beyond buffer_ (READ_BUFFER_SIZE, 256), a negative size of
    the key or the value, and an overflow of the 32 bits of whole_size_.  Simplified: an offset beyond the end of the file is as the end. *)
Definition read_key (p : sp) (f : bytes) (off : N) (idx : nat) : sres srec :=
  let lv := lev p idx in
  let hd := 1 + N.of_nat (ow p * lv) in
  let max_read := N.min (blen f - off) (2^40) in
  let n := N.min max_read (hd + 2 + 32) in
  if max_read <? hd + 2 then SErr BROKEN_DATA_ERROR
  else if 256 <? n then SUb
  else match f_read f off n with
  | None => SErr INFEASIBLE_ERROR
  | Some [] => SErr BROKEN_DATA_ERROR
  | Some (m :: b1) =>
      if negb (m =? 255) then SErr BROKEN_DATA_ERROR
      else
        let skips := read_skips (ow p) lv b1 in
        match get_var (skipn (ow p * lv) b1) with
        | None => SErr BROKEN_DATA_ERROR
        | Some (kn, b2) =>
            if (Z.of_N max_read <? i32 kn)%Z then SErr BROKEN_DATA_ERROR
            else match get_var b2 with
            | None => SErr BROKEN_DATA_ERROR
            | Some (vn, b3) =>
                if (Z.of_N max_read <? i32 vn)%Z then SErr BROKEN_DATA_ERROR
                else if ((i32 kn <? 0) || (i32 vn <? 0))%Z then SUb
                else
                  let ks := Z.to_N (i32 kn) in
                  let vs := Z.to_N (i32 vn) in
                  let hs := head_size p lv ks vs in
                  if 2^31 <=? hs + ks + vs then SUb
                  else if ks <=? blen b3 then
                    let b4 := skipn (N.to_nat ks) b3 in
                    SOk (mkR lv idx off skips (firstn (N.to_nat ks) b3) vs (if vs <=? blen b4 then Some (firstn (N.to_nat vs) b4) else None))
                  else if blen f <? off + (hs + ks + vs) then SErr BROKEN_DATA_ERROR
                  else let* (k, v) := read_body f (off + hs) ks vs in SOk (mkR lv idx off skips k vs (Some v))
            end
        end
  end.
(** GetValue, with ReadBody if it gives nullptr, e.g. tkrzw_dbm_skip.cc:460-468, 1454-1461. *)
Definition get_value (p : sp) (f : bytes) (r : srec) : sres bytes :=
  match r_val r with
  | Some v => SOk v
  | None => let* (_, v) := read_body f (r_off r + head_size p (r_lev r) (blen (r_key r)) (r_vsize r)) (blen (r_key r)) (r_vsize r) in SOk v
  end.

(** * Writing *)
(** The bytes of Write, tkrzw_dbm_skip_impl.cc:213-226. *)
Definition rec_bytes (p : sp) (lv : nat) (k v : bytes) : bytes :=
  255 :: repeat 0 (ow p * lv) ++ write_var (blen k) ++ write_var (blen v) ++ k ++ v.
(** File::Write inside of the file. *)
Definition pwrite (f : bytes) (off : N) (b : bytes) : bytes := firstn (N.to_nat off) f ++ b ++ skipn (N.to_nat off + length b) f.
(** The loop of UpdatePastRecords, tkrzw_dbm_skip_impl.cc:237-260: [n] turns are left from level [i] on. *)
Fixpoint update_links (p : sp) (idx : nat) (off : N) (past : list N) (n i : nat) (f : bytes) : bytes :=
  match n with
  | O => f
  | S n' =>
      let po := nth i past 0 in
      if po =? 0 then update_links p idx off past n' (S i) f
      else if Nat.ltb (lev p (idx - step p ^ S i)) i then f
      else update_links p idx off past n' (S i) (pwrite f (po + 1 + N.of_nat (i * ow p)) (write_fix (ow p) off))
  end.
(** tkrzw_dbm_skip_impl.cc:261-263. *)
Definition update_past (lv : nat) (off : N) (past : list N) : list N := repeat off lv ++ skipn lv past.

(** The state that WriteRecord changes: the bytes of the file, record_index_, past_offsets_, num_records_ and eff_data_size_. *)
Record wst := mkW { w_file : bytes; w_idx : nat; w_past : list N; w_num : nat; w_eff : N }.
(** WriteRecord, tkrzw_dbm_skip.cc:1431-1447, with SetData, tkrzw_dbm_skip_impl.cc:197-211: undefined if the size does not fit 32 bits. *)
Definition write_record (p : sp) (k v : bytes) (w : wst) : sres wst :=
  let lv := lev p (w_idx w) in
  if 2^31 <=? head_size p lv (blen k) (blen v) + blen k + blen v then SUb
  else
    let off := blen (w_file w) in
    let f1 := w_file w ++ rec_bytes p lv k v in
    let f2 := update_links p (w_idx w) off (w_past w) lv 0 f1 in
    SOk (mkW f2 (S (w_idx w)) (update_past lv off (w_past w)) (S (w_num w)) (w_eff w + blen k + blen v)).

(** * The cache of records *)
(** SkipRecordCache, tkrzw_dbm_skip_impl.cc:490-537: cache_unit_ and records_.  Simplified: an entry is the record itself instead of its
    serialized form, except that its offset goes through offset_width_ bytes (Serialize and Deserialize, 404-488). *)
Record scache := mkC { c_unit : nat; c_recs : list (option srec) }.
(** The loop of the constructor, tkrzw_dbm_skip_impl.cc:492-495; [fuel] is enough as the unit is multiplied by 2 at least. *)
Fixpoint cache_unit (fuel u cap num unit : nat) : nat :=
  match fuel with O => unit | S f => if Nat.ltb cap (num / unit) then cache_unit f u cap num (unit * u) else unit end.
Definition cache_new (u cap num : nat) : scache :=
  let unit := cache_unit num u cap num 1 in mkC unit (repeat None (Nat.max (num / unit) 1)).
Definition cached (p : sp) (r : srec) : srec := mkR (r_lev r) (r_idx r) (read_fix (ow p) (write_fix (ow p) (r_off r))) (r_skips r) (r_key r) (r_vsize r) (r_val r).
(** PrepareRecord, tkrzw_dbm_skip_impl.cc:510-521. *)
Definition cache_get (c : scache) (idx : nat) : option srec :=
  if Nat.eqb (idx mod c_unit c) 0 then match nth_error (c_recs c) (idx / c_unit c) with Some (Some r) => Some r | _ => None end else None.
Fixpoint set_nth {A} (n : nat) (x : A) (l : list A) : list A :=
  match l, n with [], _ => [] | _ :: l', O => x :: l' | y :: l', S n' => y :: set_nth n' x l' end.
(** Add, tkrzw_dbm_skip_impl.cc:523-534. *)
Definition cache_add (p : sp) (c : scache) (r : srec) : scache :=
  if Nat.eqb (r_idx r mod c_unit c) 0 then
    match nth_error (c_recs c) (r_idx r / c_unit c) with Some None => mkC (c_unit c) (set_nth (r_idx r / c_unit c) (Some (cached p r)) (c_recs c)) | _ => c end
  else c.
(** PrepareRecord or else ReadMetadataKey and Add, e.g. tkrzw_dbm_skip_impl.cc:275-281. *)
Definition fetch (p : sp) (f : bytes) (c : scache) (off : N) (idx : nat) : sres (scache * srec) :=
  match cache_get c idx with
  | Some r => SOk (c, r)
  | None => let* r := read_key p f off idx in SOk (cache_add p c r, r)
  end.

(** * Search *)
Section Search.
Variable p : sp.
Variable f : bytes.
(** The test at the current record, given its index and key: stop with it (Eq), leave the loop (Lt), go on (Gt); and the test at a skip
    target: go there (Gt), make it the end (Lt), neither (Eq). *)
Variable here : nat -> bytes -> comparison.
Variable there : nat -> bytes -> comparison.
(** The loop over the levels, tkrzw_dbm_skip_impl.cc:292-324 and 363-393: the cache, end_offset, and the target that was taken. *)
Fixpoint try_levels (r : srec) (cur : nat) (n : nat) (c : scache) (endo : N) : sres (scache * N * option (N * nat * srec)) :=
  match n with
  | O => SOk (c, endo, None)
  | S l =>
      let no := nth l (r_skips r) 0 in
      if (no =? 0) || (endo <=? no) then try_levels r cur l c endo
      else
        let ni := (cur + step p ^ S l)%nat in
        let* (c', nr) := fetch p f c no ni in
        match there ni (r_key nr) with
        | Gt => SOk (c', endo, Some (no, ni, nr))
        | Lt => try_levels r cur l c' no
        | Eq => try_levels r cur l c' endo
        end
  end.
(** The outer loop, tkrzw_dbm_skip_impl.cc:269-329 and 343-398: a record (inl), or the offset and the index at the end (inr). *)
Fixpoint search_loop (fuel : nat) (c : scache) (off : N) (cur : nat) (endo : N) (ready : option srec) : sres (scache * (srec + N * nat)) :=
  match fuel with
  | O => SHang
  | S fu =>
      if endo <=? off then SOk (c, inr (off, cur))
      else
        let* (c1, r) := match ready with Some r => SOk (c, r) | None => fetch p f c off cur end in
        match here cur (r_key r) with
        | Eq => SOk (c1, inl r)
        | Lt => SOk (c1, inr (off, cur))
        | Gt =>
            let* (c2, endo', nx) := try_levels r cur (r_lev r) c1 endo in
            match nx with
            | Some (no, ni, nr) => search_loop fu c2 no ni endo' (Some nr)
            | None => search_loop fu c2 (off + whole p r) (S cur) endo' None
            end
        end
  end.
End Search.

(** Search, tkrzw_dbm_skip_impl.cc:267-340; record_base is METADATA_SIZE (128).  None: NOT_FOUND_ERROR. *)
Definition search (p : sp) (f : bytes) (c : scache) (key : bytes) (upper : bool) : sres (scache * option srec) :=
  let* (c1, x) := search_loop p f (fun _ k => bcmp key k) (fun _ k => bcmp key k) (S (length f)) c 128 0 (blen f) None in
  match x with
  | inl r => SOk (c1, Some r)
  | inr (off, cur) =>
      if upper && (off <? blen f) then let* (c2, r) := fetch p f c1 off cur in SOk (c2, Some r) else SOk (c1, None)
  end.
(** SearchByIndex, tkrzw_dbm_skip_impl.cc:342-400. *)
Definition search_index (p : sp) (f : bytes) (c : scache) (index : nat) : sres (scache * option srec) :=
  let* (c1, x) := search_loop p f (fun i _ => if Nat.eqb i index then Eq else Gt) (fun i _ => if Nat.leb i index then Gt else Lt)
                    (S (length f)) c 128 0 (blen f) None in
  match x with inl r => SOk (c1, Some r) | inr _ => SOk (c1, None) end.

(** * Iterators *)
(** record_offset_ (None: -1), record_index_ and record_size_; the index has no meaning without an offset. *)
Record siter := mkI { i_off : option N; i_idx : nat; i_size : N }.
(** ClearPosition, tkrzw_dbm_skip.cc:1755-1759. *)
Definition it_clear : siter := mkI None 0 0.
Definition it_at (p : sp) (r : srec) : siter := mkI (Some (r_off r)) (r_idx r) (whole p r).
(** What the iterator calls see: the file, num_records_; the cache is threaded.  A result: status, cache, iterator. *)
Definition itres := sres (code * scache * siter).
(** A call whose error statuses of records are returned and leave the position as it is, or clear it. *)
Definition on_err {A} (x : sres A) (c : scache) (it : siter) (g : A -> itres) : itres :=
  match x with SOk a => g a | SErr e => SOk (e, c, it) | SUb => SUb | SHang => SHang end.
(** First, Last, tkrzw_dbm_skip.cc:1490-1521. *)
Definition it_first : siter := mkI (Some 128) 0 0.
Definition it_last (p : sp) (f : bytes) (num : nat) (c : scache) (it : siter) : itres :=
  if Nat.ltb 0 num then
    on_err (search_index p f c (num - 1)) c it (fun '(c1, r) => match r with Some r => SOk (SUCCESS, c1, it_at p r) | None => SOk (NOT_FOUND_ERROR, c1, it) end)
  else SOk (SUCCESS, c, it_first).
(** Jump, tkrzw_dbm_skip.cc:1523-1541. *)
Definition it_jump (p : sp) (f : bytes) (c : scache) (key : bytes) : itres :=
  on_err (search p f c key true) c it_clear (fun '(c1, r) => match r with Some r => SOk (SUCCESS, c1, it_at p r) | None => SOk (SUCCESS, c1, it_clear) end).
(** The loop of JumpLower, tkrzw_dbm_skip.cc:1566-1584. *)
Fixpoint lower_loop (p : sp) (f : bytes) (key : bytes) (incl : bool) (fuel : nat) (c : scache) (r : srec) (it : siter) : itres :=
  match fuel with
  | O => SHang
  | S fu =>
      if match bcmp (r_key r) key with Lt => true | Eq => incl | Gt => false end then SOk (SUCCESS, c, it)
      else if Nat.eqb (i_idx it) 0 then SOk (SUCCESS, c, it_clear)
      else on_err (search_index p f c (i_idx it - 1)) c it_clear (fun '(c1, r1) =>
             match r1 with
             | None => SOk (NOT_FOUND_ERROR, c1, it_clear)
             | Some r1 => lower_loop p f key incl fu c1 r1 (mkI (Some (r_off r1)) (i_idx it - 1) (whole p r1))
             end)
  end.
(** JumpLower, tkrzw_dbm_skip.cc:1543-1587. *)
Definition it_lower (p : sp) (f : bytes) (num : nat) (c : scache) (it : siter) (key : bytes) (incl : bool) : itres :=
  on_err (search p f c key true) c it_clear (fun '(c1, r) =>
    match r with
    | Some r => lower_loop p f key incl (S (length f)) c1 r (it_at p r)
    | None =>
        if Nat.ltb num 1 then SOk (SUCCESS, c1, it_clear)
        else on_err (search_index p f c1 (num - 1)) c1 it (fun '(c2, r) =>
               match r with Some r => lower_loop p f key incl (S (length f)) c2 r (it_at p r) | None => SOk (NOT_FOUND_ERROR, c2, it) end)
    end).
(** The loop of JumpUpper, tkrzw_dbm_skip.cc:1606-1625.  Simplified: num_records_ - 1 is not negative when it is compared. *)
Fixpoint upper_loop (p : sp) (f : bytes) (num : nat) (key : bytes) (incl : bool) (fuel : nat) (c : scache) (r : srec) (it : siter) : itres :=
  match fuel with
  | O => SHang
  | S fu =>
      if match bcmp (r_key r) key with Gt => true | Eq => incl | Lt => false end then SOk (SUCCESS, c, it)
      else if Nat.eqb (S (i_idx it)) num then SOk (SUCCESS, c, it_clear)
      else on_err (read_key p f (match i_off it with Some o => o | None => 0 end + whole p r) (S (i_idx it))) c it_clear (fun r1 =>
             upper_loop p f num key incl fu c r1 (it_at p r1))
  end.
(** JumpUpper, tkrzw_dbm_skip.cc:1589-1628. *)
Definition it_upper (p : sp) (f : bytes) (num : nat) (c : scache) (key : bytes) (incl : bool) : itres :=
  on_err (search p f c key true) c it_clear (fun '(c1, r) =>
    match r with Some r => upper_loop p f num key incl (S (length f)) c1 r (it_at p r) | None => SOk (SUCCESS, c1, it_clear) end).
(** Next, tkrzw_dbm_skip.cc:1630-1648. *)
Definition it_next (p : sp) (f : bytes) (c : scache) (it : siter) : itres :=
  match i_off it with
  | None => SOk (NOT_FOUND_ERROR, c, it)
  | Some off =>
      if blen f <=? off then SOk (NOT_FOUND_ERROR, c, it)
      else if i_size it <? 1 then on_err (read_key p f off (i_idx it)) c it_clear (fun r => SOk (SUCCESS, c, mkI (Some (off + whole p r)) (S (i_idx it)) 0))
      else SOk (SUCCESS, c, mkI (Some (off + i_size it)) (S (i_idx it)) 0)
  end.
(** Previous, tkrzw_dbm_skip.cc:1650-1669. *)
Definition it_prev (p : sp) (f : bytes) (c : scache) (it : siter) : itres :=
  match i_off it with
  | None => SOk (NOT_FOUND_ERROR, c, it)
  | Some off =>
      if blen f <=? off then SOk (NOT_FOUND_ERROR, c, it)
      else if Nat.ltb 0 (i_idx it) then
        on_err (search_index p f c (i_idx it - 1)) c it_clear (fun '(c1, r) =>
          match r with Some r => SOk (SUCCESS, c1, mkI (Some (r_off r)) (i_idx it - 1) (whole p r)) | None => SOk (NOT_FOUND_ERROR, c1, it_clear) end)
      else SOk (SUCCESS, c, it_clear)
  end.
(** Get, tkrzw_dbm_skip.cc:1727-1753: with both the key and the value asked for. *)
Definition it_get (p : sp) (f : bytes) (it : siter) : sres (code * option (bytes * bytes) * siter) :=
  match i_off it with
  | None => SOk (NOT_FOUND_ERROR, None, it)
  | Some off =>
      if blen f <=? off then SOk (NOT_FOUND_ERROR, None, it)
      else match (let* r := read_key p f off (i_idx it) in let* v := get_value p f r in SOk (r, v)) with
           | SOk (r, v) => SOk (SUCCESS, Some (r_key r, v), mkI (Some off) (i_idx it) (whole p r))
           | SErr e => SOk (e, None, it)
           | SUb => SUb
           | SHang => SHang
           end
  end.

(** * The record sorter *)
(** current_records_, current_mem_size_, the temporary files and the skip records with their parameters. *)
Record sorter := mkSo { so_mem : list bytes; so_size : N; so_tmp : list bytes; so_skips : list (sp * bytes) }.
Definition so_new : sorter := mkSo [] 0 [] [].
(** GetFirstFromSerializedStrPair, which is defined on what Add made. *)
Definition pair_key (s : bytes) : bytes := match first_of_pair s with Some k => k | None => [] end.
(** std::stable_sort by the key, tkrzw_dbm_skip_impl.cc:717-720: any stable sorting gives this. *)
Fixpoint st_insert (x : bytes) (l : list bytes) : list bytes :=
  match l with [] => [x] | y :: l' => match bcmp (pair_key y) (pair_key x) with Lt => y :: st_insert x l' | _ => x :: l end end.
Fixpoint st_sort (l : list bytes) : list bytes := match l with [] => [] | x :: l' => st_insert x (st_sort l') end.
(** Flush, tkrzw_dbm_skip_impl.cc:700-731. *)
Definition so_flush (s : sorter) : sorter := mkSo [] 0 (so_tmp s ++ [flat_map (fun r => flat_write (false, r)) (st_sort (so_mem s))]) (so_skips s).
(** Add, tkrzw_dbm_skip_impl.cc:550-562; [max_mem] is max_mem_size_, REC_MEM_FOOT is 8. *)
Definition so_add (max_mem : N) (k v : bytes) (s : sorter) : sorter :=
  let r := serialize_pair k v in
  let s1 := mkSo (so_mem s ++ [r]) (so_size s + blen r + 8) (so_tmp s) (so_skips s) in
  if max_mem <=? so_size s1 then so_flush s1 else s1.
(** AddSkipRecord, tkrzw_dbm_skip_impl.cc:564-566. *)
Definition so_add_skip (p : sp) (f : bytes) (s : sorter) : sorter := mkSo (so_mem s) (so_size s) (so_tmp s) (so_skips s ++ [(p, f)]).
(** IsUpdated, tkrzw_dbm_skip_impl.cc:572-574. *)
Definition so_updated (s : sorter) : bool := match so_mem s, so_tmp s, so_skips s with [], [], [] => false | _, _, _ => true end.

(** A slot: the record at its head and what the rest is read from.  The ids are the positions in the list of slots; a slot at its end is
    marked by no record, as it leaves the heap. *)
Inductive source := SFlat (f : bytes) (s : fr) | SSkip (p : sp) (f : bytes) (off : N) (idx : nat).
Definition slot := (option (bytes * bytes) * source)%type.
(** Reading the next record of a slot, tkrzw_dbm_skip_impl.cc:658-692; at first 587-611 and 618-630. *)
Definition flat_next (f : bytes) (s : fr) : sres slot :=
  match fr_read f s with
  | (SUCCESS, Some (_, r), s') => match deserialize_pair r with Some kv => SOk (Some kv, SFlat f s') | None => SUb end
  | (NOT_FOUND_ERROR, _, s') => SOk (None, SFlat f s')
  | (c, _, _) => SErr c
  end.
Definition skip_next (p : sp) (f : bytes) (off : N) (idx : nat) : sres slot :=
  if off <? blen f then
    let* r := read_key p f off idx in
    let* v := get_value p f r in
    SOk (Some (r_key r, v), SSkip p f (off + whole p r) (S idx))
  else SOk (None, SSkip p f off idx).
Definition source_next (s : source) : sres slot := match s with SFlat f s => flat_next f s | SSkip p f off idx => skip_next p f off idx end.
Fixpoint smap {A B} (g : A -> sres B) (l : list A) : sres (list B) :=
  match l with [] => SOk [] | x :: l' => let* y := g x in let* ys := smap g l' in SOk (y :: ys) end.
(** Finish, tkrzw_dbm_skip_impl.cc:576-644.  A temporary file without a record is an error there; there is none. *)
Definition so_finish (s : sorter) : sres (list slot) :=
  let s1 := match so_mem s with [] => s | _ => so_flush s end in
  let* a := smap (fun '(p, f) => skip_next p f 128 0) (so_skips s1) in
  let* b := smap (fun f => flat_next f (fr_new 0)) (so_tmp s1) in
  if existsb (fun sl => match fst sl with None => true | _ => false end) b then SErr NOT_FOUND_ERROR else SOk (a ++ b).
(** The head of the heap: the least key, the least id among equal keys (SortSlotComparator, tkrzw_dbm_skip_impl.h:372-382); the record and
    the position of its slot.  Simplified: std::push_heap and std::pop_heap are taken as choosing this one, as the order is total. *)
Fixpoint heap_top (l : list slot) (n : nat) : option (bytes * bytes * nat) :=
  match l with
  | [] => None
  | (None, _) :: l' => heap_top l' (S n)
  | (Some (k, v), _) :: l' =>
      match heap_top l' (S n) with
      | None => Some (k, v, n)
      | Some (k', v', n') => match bcmp k' k with Lt => Some (k', v', n') | _ => Some (k, v, n) end
      end
  end.
(** Get, tkrzw_dbm_skip_impl.cc:646-698. *)
Definition so_get (l : list slot) : sres (option (bytes * bytes * list slot)) :=
  match heap_top l 0 with
  | None => SOk None
  | Some (k, v, n) =>
      match nth_error l n with
      | None => SUb
      | Some (_, s) => let* sl := source_next s in SOk (Some (k, v, set_nth n sl l))
      end
  end.

(** * The database *)
(** ReducerType, tkrzw_dbm_skip.h; None is nullptr. *)
Definition reducer := option (bytes -> list bytes -> list bytes).
(** REMOVING_VALUE, tkrzw_dbm_skip.cc:1761. *)
Definition removing : bytes := [222; 173; 0; 25; 120; 2; 17].
(** ReduceRemove, tkrzw_dbm_skip.cc:1986-1998. *)
Definition reduce_remove (vs : list bytes) : list bytes := fold_left (fun acc v => if beqb v removing then [] else acc ++ [v]) vs [].
(** ReduceToFirst, ReduceToSecond, ReduceToLast, ReduceConcat..., tkrzw_dbm_skip.cc:2000-2040, on values that are not empty. *)
Definition reduce_first (_ : bytes) (vs : list bytes) : list bytes := [hd [] vs].
Definition reduce_second (_ : bytes) (vs : list bytes) : list bytes := [match vs with _ :: v :: _ => v | _ => hd [] vs end].
Definition reduce_last (_ : bytes) (vs : list bytes) : list bytes := [last vs []].
Fixpoint str_join (delim : bytes) (vs : list bytes) : bytes := match vs with [] => [] | [v] => v | v :: vs' => v ++ delim ++ str_join delim vs' end.
Definition reduce_concat (delim : bytes) (_ : bytes) (vs : list bytes) : list bytes := [str_join delim vs].

(** The fields of SkipDBMImpl, tkrzw_dbm_skip.cc:138-178, that matter here. *)
Record sdb := mkDB { d_file : bytes; d_num : nat; d_eff : N; d_old_num : nat; d_old_eff : N; d_removed : bool; d_updated : bool;
                     d_sorted : option bytes; d_idx : nat; d_past : list N; d_sorter : sorter; d_cache : scache }.
(** The parameters that do not change: sort_mem_size_, insert_in_order_, max_cached_records_. *)
Record scfg := mkCfg { g_sp : sp; g_mem : N; g_inorder : bool; g_cap : nat }.

(** A file of METADATA_SIZE bytes; the bytes of the metadata are not looked at here. *)
Definition meta0 : bytes := repeat 0 128.
(** PrepareStorage, tkrzw_dbm_skip.cc:1228-1250. *)
Definition prepare (g : scfg) (d : sdb) : sdb :=
  let n := d_num d in let e := d_eff d in
  if g_inorder g then mkDB (d_file d) n e n e (d_removed d) (d_updated d) (Some meta0) 0 (repeat 0 (maxl (g_sp g))) so_new (d_cache d)
  else mkDB (d_file d) n e n e (d_removed d) (d_updated d) (d_sorted d) (d_idx d) (d_past d) so_new (d_cache d).
(** Open of a new file, tkrzw_dbm_skip.cc:212-354. *)
Definition sdb_new (g : scfg) : sdb :=
  prepare g (mkDB meta0 0 0 0 0 false false None 0 [] so_new (cache_new (step (g_sp g)) (g_cap g) 0)).

(** Writing the values of one key, tkrzw_dbm_skip.cc:1318-1333 and 1338-1352. *)
Fixpoint write_all (p : sp) (k : bytes) (vs : list bytes) (w : wst) : sres wst :=
  match vs with [] => SOk w | v :: vs' => let* w1 := write_record p k v w in write_all p k vs' w1 end.
Definition write_group (p : sp) (red : reducer) (removed : bool) (k : bytes) (vs : list bytes) (w : wst) : sres wst :=
  let live := if removed then reduce_remove vs else vs in
  match live with
  | [] => SOk w
  | _ => write_all p k (match red with None => live | Some g => g k live end) w
  end.
(** The loop of FinishStorage, tkrzw_dbm_skip.cc:1297-1353; [last] is last_key and last_values, None if they are empty. *)
Fixpoint merge_loop (p : sp) (red : reducer) (removed : bool) (fuel : nat) (l : list slot) (last : option (bytes * list bytes)) (w : wst) : sres wst :=
  match fuel with
  | O => SHang
  | S fu =>
      let* x := so_get l in
      match x with
      | None => match last with None => SOk w | Some (k, vs) => write_group p red removed k vs w end
      | Some (k, v, l') =>
          match red, removed with
          | None, false => let* w1 := write_record p k v w in merge_loop p red removed fu l' last w1
          | _, _ =>
              match last with
              | None => merge_loop p red removed fu l' (Some (k, [v])) w
              | Some (k0, vs) =>
                  if beqb k k0 then merge_loop p red removed fu l' (Some (k0, vs ++ [v])) w
                  else let* w1 := write_group p red removed k0 vs w in merge_loop p red removed fu l' (Some (k, [v])) w1
              end
          end
      end
  end.
(** The turns that the loop can take: each consumes a byte. *)
Definition merge_fuel (s : sorter) : nat := S (fold_right (fun f n => length f + n)%nat O (map snd (so_skips s) ++ so_tmp s ++ so_mem s)).
(** FinishStorage, tkrzw_dbm_skip.cc:1252-1380. *)
Definition finish (g : scfg) (red : reducer) (d : sdb) : sres sdb :=
  let p := g_sp g in
  match red, d_sorted d, (blen (d_file d) =? 128) && negb (so_updated (d_sorter d)) with
  | None, Some sf, true => SOk (mkDB sf (d_num d) (d_eff d) (d_old_num d) (d_old_eff d) (d_removed d) false None (d_idx d) [] so_new (d_cache d))
  | _, _, _ =>
      let s1 := if 128 <? blen (d_file d) then so_add_skip p (d_file d) (d_sorter d) else d_sorter d in
      let s2 := match d_sorted d with Some sf => if 128 <? blen sf then so_add_skip p sf s1 else s1 | None => s1 end in
      let* sl := so_finish s2 in
      let* w := merge_loop p red (d_removed d) (merge_fuel s2) sl None (mkW meta0 0 (repeat 0 (maxl p)) 0 0) in
      SOk (mkDB (w_file w) (w_num w) (w_eff w) (d_old_num d) (d_old_eff d) (d_removed d) false None (w_idx w) [] so_new (d_cache d))
  end.
(** Synchronize, tkrzw_dbm_skip.cc:864-890. *)
Definition synchronize (g : scfg) (red : reducer) (d : sdb) : sres sdb :=
  let* d1 := finish g red d in
  let d2 := prepare g d1 in
  SOk (mkDB (d_file d2) (d_num d2) (d_eff d2) (d_old_num d2) (d_old_eff d2) (d_removed d2) (d_updated d2) (d_sorted d2) (d_idx d2) (d_past d2) (d_sorter d2)
            (cache_new (step (g_sp g)) (g_cap g) (d_num d2))).
(** DiscardStorage and Revert, tkrzw_dbm_skip.cc:1382-1396, 1012-1026. *)
Definition revert (g : scfg) (d : sdb) : sdb :=
  prepare g (mkDB (d_file d) (d_old_num d) (d_old_eff d) (d_old_num d) (d_old_eff d) (d_removed d) false None (d_idx d) [] so_new (d_cache d)).
(** UpdateRecord, tkrzw_dbm_skip.cc:1398-1429. *)
Definition update_record (g : scfg) (k : bytes) (a : action) (d : sdb) : sres sdb :=
  let store v rm :=
    match d_sorted d with
    | None => SOk (mkDB (d_file d) (d_num d) (d_eff d) (d_old_num d) (d_old_eff d) rm true None (d_idx d) (d_past d) (so_add (g_mem g) k v (d_sorter d)) (d_cache d))
    | Some sf =>
        let* w := write_record (g_sp g) k v (mkW sf (d_idx d) (d_past d) (d_num d) (d_eff d)) in
        SOk (mkDB (d_file d) (w_num w) (w_eff w) (d_old_num d) (d_old_eff d) rm true (Some (w_file w)) (w_idx w) (w_past w) (d_sorter d) (d_cache d))
    end in
  match a with
  | ANoop => SOk d
  | ARemove => store removing true
  | ASet v => store v (d_removed d)
  end.
(** The record of a key, tkrzw_dbm_skip.cc:1449-1465: the first part of ProcessImpl. *)
Definition set_cache (d : sdb) (c : scache) : sdb :=
  mkDB (d_file d) (d_num d) (d_eff d) (d_old_num d) (d_old_eff d) (d_removed d) (d_updated d) (d_sorted d) (d_idx d) (d_past d) (d_sorter d) c.
Definition lookup (g : scfg) (k : bytes) (d : sdb) : sres (sdb * option bytes) :=
  let* (c, r) := search (g_sp g) (d_file d) (d_cache d) k false in
  match r with
  | None => SOk (set_cache d c, None)
  | Some r => let* v := get_value (g_sp g) (d_file d) r in SOk (set_cache d c, Some v)
  end.
(** Process, tkrzw_dbm_skip.cc:403-430, 1449-1475. *)
Definition sdb_process {S} (g : scfg) (k : bytes) (pr : proc S) (writable : bool) (s : S) (d : sdb) : sres (sdb * S) :=
  let* (d1, r) := lookup g k d in
  let '(a, s1) := match r with Some v => on_full pr k v s | None => on_empty pr k s end in
  if writable then let* d2 := update_record g k a d1 in SOk (d2, s1) else SOk (d1, s1).
(** Insert, tkrzw_dbm_skip.cc:432-444. *)
Definition insert := update_record.
(** SkipDBM::Set, tkrzw_dbm_skip.cc:1789-1795, with DBM::Set, tkrzw_dbm.h:1123-1131; [want_old]: old_value is not nullptr.  The result: the status
    and the old value. *)
Definition sdb_set (g : scfg) (k v : bytes) (overwrite want_old : bool) (d : sdb) : sres (sdb * (code * bytes)) :=
  if overwrite && negb want_old then let* d1 := insert g k (ASet v) d in SOk (d1, (SUCCESS, []))
  else sdb_process g k (pr_set v false) true (SUCCESS, []) d.
(** SkipDBM::Remove, tkrzw_dbm_skip.cc:1797-1802. *)
Definition sdb_remove (g : scfg) (k : bytes) (want_old : bool) (d : sdb) : sres (sdb * (code * bytes)) :=
  if negb want_old then let* d1 := insert g k ARemove d in SOk (d1, (SUCCESS, []))
  else sdb_process g k pr_remove true (SUCCESS, []) d.
(** GetByIndex, tkrzw_dbm_skip.cc:446-471. *)
Definition get_by_index (g : scfg) (i : nat) (d : sdb) : sres (sdb * option (bytes * bytes)) :=
  let* (c, r) := search_index (g_sp g) (d_file d) (d_cache d) i in
  match r with
  | None => SOk (set_cache d c, None)
  | Some r => let* v := get_value (g_sp g) (d_file d) r in SOk (set_cache d c, Some (r_key r, v))
  end.
(** MergeSkipDatabase, tkrzw_dbm_skip.cc:1033-1072: the parameters and the file of the other database. *)
Definition merge_db (p : sp) (f : bytes) (d : sdb) : sdb :=
  mkDB (d_file d) (d_num d) (d_eff d) (d_old_num d) (d_old_eff d) (d_removed d) true (d_sorted d) (d_idx d) (d_past d) (so_add_skip p f (d_sorter d)) (d_cache d).
