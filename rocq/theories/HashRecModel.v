(** Records of the hash database: their encoding in the file and its parser.
    Source: class HashRecord, /repo/tkrzw_dbm_hash_impl.h:41-260 and
    /repo/tkrzw_dbm_hash_impl.cc:53-308.
    Simplifications: sizes are unbounded numbers, the overflow of the int32_t
    members (whole_size_, padding_size_) is excluded by hypotheses of the
    theorems; values are taken as already compressed (no compressor). *)
From Verif Require Import Bytes CodecModel FileModel HashUtilModel.
Open Scope N_scope.

(** The parameters of the format: offset_width_, align_pow_, crc_width_. *)
Record hcfg := mkhcfg { ow : nat; apow : N; crcw : nat }.

(** Limits enforced by OpenImpl and LoadMetadata, tkrzw_dbm_hash.cc:58-60 and
    1337-1342, and the CRC widths of GetCRCWidthFromStaticFlags. *)
Definition hcfg_ok (c : hcfg) : Prop :=
  (3 <= ow c <= 6)%nat /\ apow c <= 16 /\ In (crcw c) [0; 1; 2; 4]%nat.

Definition halign (c : hcfg) : N := 2 ^ apow c.

(** HashRecord::OperationType, tkrzw_dbm_hash_impl.h:53-62. *)
Inductive optype := OpVoid | OpSet | OpRemove | OpAdd.

(** RECORD_MAGIC_*, tkrzw_dbm_hash_impl.h:225-229. *)
Definition op_magic (t : optype) : N :=
  match t with OpVoid => 192 | OpSet => 128 | OpRemove => 64 | OpAdd => 0 end.

Definition MAX_KEY_SIZE : N := 8388607.
Definition MAX_VALUE_SIZE : N := 2147483647.
Definition META_MIN_READ_SIZE : N := 48.

(** The data members set by SetData and used by Write. *)
Record hrec := mkhrec {
  r_type : optype; r_child : N; r_key : bytes; r_val : bytes; r_whole : N }.

(** base_size of SetData, tkrzw_dbm_hash_impl.cc:228-230. *)
Definition base_size (c : hcfg) (key value : bytes) : N :=
  1 + N.of_nat (ow c) + size_var (blen key) + size_var (blen value) + 1 + N.of_nat (crcw c)
  + blen key + blen value.

(** HashRecord::SetData, tkrzw_dbm_hash_impl.cc:223-254.  The padding size is
    recomputed from the whole size by [rec_pad]; checksum and CRC are functions
    of key and value. *)
Definition set_data (c : hcfg) (t : optype) (ideal : N) (key value : bytes) (child : N) : hrec :=
  mkhrec t child key value (align_num (N.max (base_size c key value) ideal) (halign c)).

Definition rec_pad (c : hcfg) (r : hrec) : N := r_whole r - base_size c (r_key r) (r_val r).

(** The padding written by Write, tkrzw_dbm_hash_impl.cc:289-292. *)
Definition pad_bytes (n : N) : bytes :=
  if 0 <? n then 221 :: repeat 0 (N.to_nat (n - size_var n)) else [].

(** HashRecord::Write, tkrzw_dbm_hash_impl.cc:256-303: the bytes up to the CRC. *)
Definition rec_head (c : hcfg) (r : hrec) : bytes :=
  [N.lor (magic_checksum (r_key r) (r_val r)) (op_magic (r_type r))]
  ++ write_fix (ow c) (N.shiftr (r_child r) (apow c))
  ++ write_var (blen (r_key r)) ++ write_var (blen (r_val r)) ++ write_var (rec_pad c r)
  ++ write_fix (crcw c) (record_crc (crcw c) (r_key r) (r_val r)).
(** The whole buffer passed to File::Write or File::Append. *)
Definition rec_bytes (c : hcfg) (r : hrec) : bytes :=
  rec_head c r ++ r_key r ++ r_val r ++ pad_bytes (rec_pad c r).

(** Result of ReadMetadataKey: the data members after it.  [m_val] is None when
    value_ptr_ stays nullptr. *)
Record hmeta := mkhmeta {
  m_cks : N; m_type : optype; m_child : N; m_ksz : N; m_vsz : N; m_pad : N; m_crc : N;
  m_hdr : N; m_whole : N; m_key : bytes; m_val : option bytes }.

(** The operation type from the magic, tkrzw_dbm_hash_impl.cc:79-88. *)
Definition magic_op (magic : N) : optype :=
  let m := N.land magic 192 in
  if m =? 192 then OpVoid else if m =? 128 then OpSet else if m =? 64 then OpRemove else OpAdd.

(** min_record_size, tkrzw_dbm_hash_impl.cc:54-55. *)
Definition min_record_size (c : hcfg) : N := 1 + N.of_nat (ow c) + 3 + N.of_nat (crcw c).

(** HashRecord::ReadBody, tkrzw_dbm_hash_impl.cc:176-186. *)
Definition read_body (f : file) (off hdr ksz vsz : N) : option (bytes * bytes) :=
  match file_read f (off + hdr) (ksz + vsz) with
  | Some b => Some (firstn (N.to_nat ksz) b, skipn (N.to_nat ksz) b)
  | None => None
  end.

(** The header fields, tkrzw_dbm_hash_impl.cc:73-140, from the bytes read. *)
Definition parse_head (c : hcfg) (maxr : N) (buf : bytes)
  : option (N * optype * N * N * N * N * N * N * bytes) :=
  match buf with
  | [] => None
  | magic :: b1 =>
      let cks := N.land magic 63 in
      if cks <? 3 then None else
      match take_exact (ow c) b1 with
      | None => None
      | Some (cb, b2) =>
          let child := N.shiftl (read_fix_bytes cb) (apow c) in
          match get_var b2 with
          | None => None
          | Some (ksz, b3) =>
              if (MAX_KEY_SIZE <? ksz) || (maxr <? ksz) then None else
              match get_var b3 with
              | None => None
              | Some (vsz, b4) =>
                  if (MAX_VALUE_SIZE <? vsz) || (maxr <? vsz) then None else
                  match get_var b4 with
                  | None => None
                  | Some (pad, b5) =>
                      if (MAX_VALUE_SIZE <? pad) || (maxr <? pad) then None else
                      match take_exact (crcw c) b5 with
                      | None => None
                      | Some (crcb, rest) =>
                          Some (cks, magic_op magic, child, ksz, vsz, pad, read_fix_bytes crcb,
                                blen b4 - blen b5, rest)
                      end
                  end
              end
          end
      end
  end.

(** The checks of the two first padding bytes when they were read,
    tkrzw_dbm_hash_impl.cc:154-163. *)
Definition pad_check (pad : N) (rest : bytes) : bool :=
  match rest with
  | [] => true
  | p0 :: rest' =>
      if 0 <? pad then
        (p0 =? 221) &&
        match rest' with
        | [] => true
        | p1 :: _ => if 1 <? pad then p1 =? 0 else true
        end
      else true
  end.

(** HashRecord::ReadMetadataKey, tkrzw_dbm_hash_impl.cc:53-174.  [mrs] is
    min_read_size. *)
Definition read_meta (c : hcfg) (f : file) (off mrs : N) : option hmeta :=
  if fsize f <? off + min_record_size c then None else
  let maxr := fsize f - off in
  let rs := N.min maxr mrs in
  match file_read f off rs with
  | None => None
  | Some buf =>
      match parse_head c maxr buf with
      | None => None
      | Some (cks, ty, child, ksz, vsz, pad, crc, step, rest) =>
          let hdr := blen buf - blen rest in
          let whole := hdr + ksz + vsz + pad - (step - 1) in
          if ksz <=? blen rest then
            let key := firstn (N.to_nat ksz) rest in
            let rest2 := skipn (N.to_nat ksz) rest in
            let val := if vsz <=? blen rest2 then Some (firstn (N.to_nat vsz) rest2) else None in
            if pad_check pad (skipn (N.to_nat vsz) rest2) then
              Some (mkhmeta cks ty child ksz vsz pad crc hdr whole key val)
            else None
          else if fsize f <? off + whole then None
          else match read_body f off hdr ksz vsz with
               | None => None
               | Some (key, val) => Some (mkhmeta cks ty child ksz vsz pad crc hdr whole key (Some val))
               end
      end
  end.

(** GetValue, reading the body if the value was not read yet, as at
    tkrzw_dbm_hash.cc:1454-1461. *)
Definition meta_value (f : file) (off : N) (m : hmeta) : option bytes :=
  match m_val m with
  | Some v => Some v
  | None =>
      match read_body f off (m_hdr m) (m_ksz m) (m_vsz m) with
      | Some (_, v) => Some v
      | None => None
      end
  end.

(** HashRecord::CheckCRC, tkrzw_dbm_hash_impl.cc:188-221. *)
Definition check_crc (c : hcfg) (f : file) (off : N) (m : hmeta) : bool :=
  match meta_value f off m with
  | None => false
  | Some v =>
      (m_cks m =? magic_checksum (m_key m) v) &&
      (if (0 <? crcw c)%nat then m_crc m =? record_crc (crcw c) (m_key m) v else true)
  end.

(** HashRecord::WriteChildOffset, tkrzw_dbm_hash_impl.cc:305-310. *)
Definition write_child (c : hcfg) (f : file) (off child : N) : file :=
  file_write f (off + 1) (write_fix (ow c) (N.shiftr child (apow c))).
