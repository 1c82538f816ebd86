(** Update loggers.  Source: /repo/tkrzw_dbm_ulog.cc.  int32_t values are
    integers; outcomes of undefined behaviour are explicit. *)
From Coq Require Import ZArith.
From Verif Require Import Bytes CodecModel StatusModel MqModel.
Local Open Scope N_scope.

(** Conversion of a uint64_t to int32_t (two's complement). *)
Definition to_i32 (n : N) : Z :=
  let z := Z.of_N (n mod 4294967296) in (if 2147483648 <=? z then z - 4294967296 else z)%Z.
Definition INT32MIN : Z := (-2147483648)%Z.
Definition in_i32 (z : Z) : bool := ((-2147483648 <=? z) && (z <=? 2147483647))%Z.

(** An update: DBMUpdateLoggerMQ::UpdateLog without the ids, tkrzw_dbm_ulog.h. *)
Inductive upd := USet (k v : bytes) | URemove (k : bytes) | UClear.
(** UpdateLog as ParseUpdateLog fills it. *)
Record ulog := mkUlog { u_sid : Z; u_idx : Z; u_op : upd }.

(** * Writing *)
(** The constructor, tkrzw_dbm_ulog.cc:109-113. *)
Record logger := mkLg { lg_sid : Z; lg_idx : Z }.
Definition lg_new (sid idx : Z) : logger := mkLg (Z.max sid 0) (Z.max idx 0).
(** The server ID of the record, tkrzw_dbm_ulog.cc:116-121, from the thread-local
    one [tl]; None: nothing is logged. *)
Definition rec_sid (lg : logger) (tl : Z) : option Z :=
  if (0 <=? tl)%Z then Some tl else if (tl =? INT32MIN)%Z then None else Some (lg_sid lg).
(** The bytes of WriteSet, WriteRemove and WriteClear, tkrzw_dbm_ulog.cc:126-135,
    156-162 and 182-185. *)
Definition ulog_bytes (l : ulog) : bytes :=
  let ids := write_var (Z.to_N (u_sid l)) ++ write_var (Z.to_N (u_idx l)) in
  match u_op l with
  | USet k v => [161] ++ ids ++ write_var (blen k) ++ write_var (blen v) ++ k ++ v
  | URemove k => [162] ++ ids ++ write_var (blen k) ++ k
  | UClear => [163] ++ ids
  end.
(** The size of the buffer, tkrzw_dbm_ulog.cc:123-125 and 153-155. *)
Definition ulog_room (op : upd) : N :=
  match op with
  | USet k v => N.max (20 + blen k + blen v) 4096
  | URemove k => N.max (20 + blen k) 4096
  | UClear => 4096
  end.
(** What is given to MessageQueue::Write; None: the buffer is overrun (undefined). *)
Definition ulog_write (l : ulog) : option bytes :=
  if ulog_room (u_op l) <? blen (ulog_bytes l) then None else Some (ulog_bytes l).

(** * ParseUpdateLog, tkrzw_dbm_ulog.cc:197-281 *)
(** One number: the check of record_size and ReadVarNum.  [rs]: record_size, [rp]:
    the bytes from rp on. *)
Definition p_num (rp : bytes) (rs : Z) : option (N * bytes * Z) :=
  if (rs <? 1)%Z then None
  else match read_var (firstn (Z.to_nat rs) rp) with
       | None => None
       | Some (n, step) => Some (n, skipn (N.to_nat step) rp, (rs - Z.of_N step)%Z)
       end.
(** None: undefined behaviour (the sum of the sizes overflows, or a string_view of
    a negative size is made). *)
Definition parse (m : bytes) : option (code * option ulog) :=
  let bad := Some (BROKEN_DATA_ERROR, None) in
  let rs := to_i32 (blen m) in
  if (rs <? 3)%Z then bad
  else
    match m with
    | [] => bad
    | magic :: rp =>
      match p_num rp (rs - 1) with None => bad | Some (sid, rp, rs) =>
      match p_num rp rs with None => bad | Some (idx, rp, rs) =>
      let sid := to_i32 sid in
      let idx := to_i32 idx in
      if magic =? 161 then
        match p_num rp rs with None => bad | Some (ks, rp, rs) =>
        match p_num rp rs with None => bad | Some (vs, rp, rs) =>
        let ks := to_i32 ks in
        let vs := to_i32 vs in
        if negb (in_i32 (ks + vs)) then None
        else if negb (ks + vs =? rs)%Z then bad
        else if (ks <? 0)%Z || (vs <? 0)%Z then None
        else Some (SUCCESS, Some (mkUlog sid idx (USet (firstn (Z.to_nat ks) rp) (firstn (Z.to_nat vs) (skipn (Z.to_nat ks) rp)))))
        end end
      else if magic =? 162 then
        match p_num rp rs with None => bad | Some (ks, rp, rs) =>
        let ks := to_i32 ks in
        if negb (ks =? rs)%Z then bad
        else Some (SUCCESS, Some (mkUlog sid idx (URemove (firstn (Z.to_nat ks) rp))))
        end
      else if magic =? 163 then Some (SUCCESS, Some (mkUlog sid idx UClear))
      else bad
      end end
    end.

(** * Applying *)
Section Target.
  (** The target database: its state and Set, Remove, Clear. *)
  Variable T : Type.
  Variable t_set : T -> bytes -> bytes -> code * T.
  Variable t_remove : T -> bytes -> code * T.
  Variable t_clear : T -> code * T.

  (** The filters of ApplyUpdateLog, tkrzw_dbm_ulog.cc:291-308; None: the
      negation overflows. *)
  Definition passes (want got : Z) : option bool :=
    if (want <? 0)%Z then if (want =? INT32MIN)%Z then None else Some (negb (got =? - want)%Z)
    else Some (got =? want)%Z.
  (** tkrzw_dbm_ulog.cc:309-323: the status of the operation is not used. *)
  Definition apply_op (t : T) (op : upd) : T :=
    match op with USet k v => snd (t_set t k v) | URemove k => snd (t_remove t k) | UClear => snd (t_clear t) end.
  (** ApplyUpdateLog, tkrzw_dbm_ulog.cc:283-324. *)
  Definition apply_log (t : T) (m : bytes) (sid idx : Z) : option (code * T) :=
    match parse m with
    | None => None
    | Some (_, Some l) =>
        match passes sid (u_sid l) with
        | None => None
        | Some false => Some (INFEASIBLE_ERROR, t)
        | Some true =>
            match passes idx (u_idx l) with
            | None => None
            | Some false => Some (INFEASIBLE_ERROR, t)
            | Some true => Some (SUCCESS, apply_op t (u_op l))
            end
        end
    | Some (c, None) => Some (c, t)
    end.

  (** Outcomes of ApplyUpdateLogFromFiles: a status, undefined behaviour, or no
      termination. *)
  Inductive outcome := Done (c : code) (t : T) | Undefined | Hangs.
  (** The loop over one file, tkrzw_dbm_ulog.cc:347-367; [size] is file_size.
      CANCELED_ERROR leaves the offset alone, so the next turn is the same.  The
      minimum given to ReadNextMessage is the default one, 0.  Fuel: the size of
      the file suffices (Hangs otherwise, see the proofs). *)
  Fixpoint apply_file (fuel : nat) (f : bytes) (size min : N) (sid idx : Z) (off : N) (t : T) : outcome :=
    if off <? size then
      match fuel with
      | O => Hangs
      | S fu =>
          match read_next f off 0 with
          | (SUCCESS, off', Some (ts, Some m)) =>
              if ts <? min then apply_file fu f size min sid idx off' t
              else
                match apply_log t m sid idx with
                | None => Undefined
                | Some (c, t') =>
                    if code_eqb c SUCCESS || code_eqb c INFEASIBLE_ERROR then apply_file fu f size min sid idx off' t' else Done c t'
                end
          | (CANCELED_ERROR, off', _) => if off' <? size then Hangs else Done SUCCESS t
          | (c, _, _) => Done c t
          end
      end
    else Done SUCCESS t.
  (** ApplyUpdateLogFromFiles, tkrzw_dbm_ulog.cc:326-375. *)
  Fixpoint apply_files (l : dir) (min : N) (sid idx : Z) (t : T) : outcome :=
    match l with
    | [] => Done SUCCESS t
    | (_, f) :: l' =>
        match load_meta f with
        | inl c => Done c t
        | inr (_, _, ts, size) =>
            if ts <? min then apply_files l' min sid idx t
            else match apply_file (S (length f)) f (N.min size (blen f)) min sid idx 0 t with
                 | Done SUCCESS t' => apply_files l' min sid idx t'
                 | o => o
                 end
        end
    end.
End Target.
Arguments Done {T}. Arguments Undefined {T}. Arguments Hangs {T}.
Arguments apply_op {T}. Arguments apply_log {T}. Arguments apply_file {T}. Arguments apply_files {T}.

(** * Other loggers *)
(** DBMUpdateLoggerStrDeque, tkrzw_dbm_ulog.cc:33-52: the texts. *)
Definition text_log (delim : bytes) (op : upd) : bytes :=
  match op with
  | USet k v => [83; 69; 84] ++ delim ++ k ++ delim ++ v
  | URemove k => [82; 69; 77; 79; 86; 69] ++ delim ++ k
  | UClear => [67; 76; 69; 65; 82]
  end.
(** DBMUpdateLoggerDBM, tkrzw_dbm_ulog.cc:85-103. *)
Section DbmLogger.
  Variable T : Type.
  Variable t_set : T -> bytes -> bytes -> code * T.
  Variable t_remove : T -> bytes -> code * T.
  Variable t_clear : T -> code * T.
  Definition dbm_log (t : T) (op : upd) : code * T :=
    match op with
    | USet k v => t_set t k v
    | URemove k => let '(c, t') := t_remove t k in (if code_eqb c SUCCESS || code_eqb c NOT_FOUND_ERROR then SUCCESS else c, t')
    | UClear => t_clear t
    end.
End DbmLogger.
Arguments dbm_log {T}.

(** What a database logs for the action of a processor, as in
    tkrzw_dbm_hash.cc:1474-1484 (record found) and 1599-1606 (not found) and the same
    in the other databases. *)
From Verif Require Import DbmModel.
Definition logged (m : amap) (k : bytes) (a : action) : list upd :=
  match m k, a with
  | _, ANoop => []
  | Some _, ARemove => [URemove k]
  | None, ARemove => []
  | _, ASet v => [USet k v]
  end.
