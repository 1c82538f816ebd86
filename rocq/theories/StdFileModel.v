(** StdHashDBM and StdTreeDBM: opening, closing and synchronizing, with the records in a
    file of flat records.  Source: /repo/tkrzw_dbm_std.cc.
    The files are those at the path and at path + ".tmp.export"; opening, closing, renaming
    and removing files succeed (a missing file opened as read-only apart), reading is as in
    FlatModel; appending a record may fail, by the function [wok] on the number of the
    append, and then appends nothing.  Times are texts. *)
From Coq Require Import List NArith Bool.
Import ListNotations.
From Verif Require Import Bytes BytesOrder CodecModel StatusModel StrSerialModel StrSearchModel FlatModel DbmModel StdModel.
Local Open Scope N_scope.

Record files := mkF { f_main : option bytes; f_tmp : option bytes }.
(** open_, writable_ and timestamp_ (None: never initialized), tkrzw_dbm_std.cc:71-76; path_ is
    the one path, open_options_ is not modelled. *)
Record sd := mkD { d_db : sdb; d_open : bool; d_wr : bool; d_ts : option bytes }.
(** The constructors, tkrzw_dbm_std.cc:100-112: that of StdHashDBM does not set timestamp_. *)
Definition sd_new (kd : kind) : sd := mkD s_new false false (if k_tree kd then Some [48] else None).

(** Names in the metadata. *)
Definition n_class : bytes := [99; 108; 97; 115; 115].
Definition n_dbm : bytes := [68; 66; 77].
Definition n_timestamp : bytes := [116; 105; 109; 101; 115; 116; 97; 109; 112].
Definition n_num_records : bytes := [110; 117; 109; 95; 114; 101; 99; 111; 114; 100; 115].
Definition n_hash : bytes := [83; 116; 100; 72; 97; 115; 104; 68; 66; 77].
Definition n_tree : bytes := [83; 116; 100; 84; 114; 101; 101; 68; 66; 77].
(** ToString of a size_t: at most twenty digits. *)
Fixpoint dec (fuel : nat) (n : N) (acc : bytes) : bytes :=
  match fuel with O => acc | S f => if n <? 10 then (48 + n) :: acc else dec f (n / 10) ((48 + n mod 10) :: acc) end.
(** SearchMap with "" as the default. *)
Definition search_map (m : smap) (k : bytes) : bytes := match find (fun r => beqb (fst r) k) m with Some r => snd r | None => [] end.
(** timestamp_ after a metadata record, tkrzw_dbm_std.cc:543-550.  None: DeserializeStrMap throws
    or does not end (C26; every iteration that reads something leaves fewer bytes, so that
    this fuel is enough). *)
Definition read_ts (meta : bytes) (ts : option bytes) : option (option bytes) :=
  match deserialize_map (S (length meta)) meta with
  | DDone m =>
      Some match search (search_map m n_class) n_dbm with
           | Some _ => match search_map m n_timestamp with [] => ts | t => Some t end
           | None => ts
           end
  | _ => None
  end.
(** map_.emplace: a key that is there keeps its value. *)
Definition emplace_new (kd : kind) (db : sdb) (k v : bytes) : sdb :=
  match find_key k (s_map db) with Some _ => db | None => emplace kd db k v end.
(** ImportRecords, tkrzw_dbm_std.cc:526-571.  Fuel: the number of iterations.  None: out of fuel, or
    as for [read_ts]. *)
Fixpoint std_import (kd : kind) (fuel : nat) (f : bytes) (s : fr) (db : sdb) (ts : option bytes) : option (code * sdb * option bytes) :=
  match fuel with
  | O => None
  | S fu =>
      match fr_read f s with
      | (SUCCESS, Some (true, m), s1) => match read_ts m ts with Some ts' => std_import kd fu f s1 db ts' | None => None end
      | (SUCCESS, Some (false, k), s1) =>
          match fr_read f s1 with
          | (SUCCESS, Some (true, _), _) => Some (BROKEN_DATA_ERROR, db, ts)
          | (SUCCESS, Some (false, v), s2) => std_import kd fu f s2 (emplace_new kd db k v) ts
          | (c, _, _) => Some (if code_eqb c NOT_FOUND_ERROR then BROKEN_DATA_ERROR else c, db, ts)
          end
      | (c, _, _) => Some (if code_eqb c NOT_FOUND_ERROR then SUCCESS else c, db, ts)
      end
  end.
(** Open, tkrzw_dbm_std.cc:124-148, with OPEN_TRUNCATE or not; [wall] is GetWallTime.
    None: it throws or does not return. *)
Definition std_open (kd : kind) (d : sd) (fs : files) (wr trunc : bool) (wall : bytes) : option (code * sd * files) :=
  if d_open d then Some (PRECONDITION_ERROR, d, fs)
  else
    match (if wr then Some (if trunc then [] else match f_main fs with Some f => f | None => [] end) else f_main fs) with
    | None => Some (NOT_FOUND_ERROR, d, fs)
    | Some f =>
        let ts := if blen f <? 1 then Some wall else d_ts d in
        match std_import kd (S (length f)) f (fr_new 0) (d_db d) ts with
        | None => None
        | Some (c, db, ts') =>
            if code_eqb c SUCCESS then Some (SUCCESS, mkD db true wr ts', mkF (Some f) (f_tmp fs))
            else Some (c, mkD db false (d_wr d) ts', mkF (Some f) (f_tmp fs))
        end
    end.
(** The metadata of ExportRecords, tkrzw_dbm_std.cc:586-594. *)
Definition std_meta (kd : kind) (wall : bytes) (n : nat) : bytes :=
  serialize_map [(n_class, if k_tree kd then n_tree else n_hash); (n_num_records, dec 20 (N.of_nat n) []); (n_timestamp, wall)].
(** rec.Write and status |=. *)
Definition exp_write (wok : nat -> bool) (n : nat) (b : bytes) (c : code) (r : frec) : bytes * code :=
  if wok n then (b ++ flat_write r, c) else (b, if code_eqb c SUCCESS then SYSTEM_ERROR else c).
(** The loop, tkrzw_dbm_std.cc:595-603. *)
Fixpoint exp_loop (wok : nat -> bool) (n : nat) (b : bytes) (c : code) (l : list elem) : bytes * code :=
  match l with
  | [] => (b, c)
  | e :: r =>
      let '(b1, c1) := exp_write wok n b c (false, e_key e) in
      let '(b2, c2) := exp_write wok (S n) b1 c1 (false, e_val e) in
      if code_eqb c2 SUCCESS then exp_loop wok (S (S n)) b2 c2 r else (b2, c2)
  end.
(** What is written to the temporary file, and the status. *)
Definition exp_bytes (kd : kind) (d : sd) (wok : nat -> bool) (wall : bytes) : bytes * code :=
  let '(b, c) := exp_write wok 0 [] SUCCESS (true, std_meta kd wall (length (s_map (d_db d)))) in
  exp_loop wok 1 b c (s_map (d_db d)).
(** ExportRecords, tkrzw_dbm_std.cc:573-610: the temporary file takes the name whatever the
    status is. *)
Definition std_export (kd : kind) (d : sd) (fs : files) (wok : nat -> bool) (wall : bytes) : code * files :=
  let '(b, c) := exp_bytes kd d wok wall in (c, mkF (Some b) None).
(** What is on the disk at some moment of ExportRecords: before, while the temporary file is
    written, after the renaming. *)
Inductive exporting (kd : kind) (d : sd) (fs : files) (wok : nat -> bool) (wall : bytes) : files -> Prop :=
| exp_before : exporting kd d fs wok wall fs
| exp_writing p q : p ++ q = fst (exp_bytes kd d wok wall) -> exporting kd d fs wok wall (mkF (f_main fs) (Some p))
| exp_after : exporting kd d fs wok wall (snd (std_export kd d fs wok wall)).
(** Close, tkrzw_dbm_std.cc:150-170. *)
Definition std_close (kd : kind) (d : sd) (fs : files) (wok : nat -> bool) (wall : bytes) : code * sd * files :=
  if d_open d then
    let '(c, fs') := if d_wr d then std_export kd d fs wok wall else (SUCCESS, fs) in
    (c, mkD (mkS [] (s_next (d_db d)) (fun _ => None) (s_log (d_db d))) false false (Some [48]), fs')
  else (PRECONDITION_ERROR, d, fs).
(** Synchronize, tkrzw_dbm_std.cc:436-451, without a logger and a file processor: the status is
    not returned. *)
Definition std_sync (kd : kind) (d : sd) (fs : files) (wok : nat -> bool) (wall : bytes) : code * files :=
  if d_open d && d_wr d then (SUCCESS, snd (std_export kd d fs wok wall)) else (SUCCESS, fs).
(** GetTimestamp, tkrzw_dbm_std.cc:386-394.  None: an indeterminate value is read. *)
Definition std_timestamp (d : sd) : option (code * bytes) :=
  if d_open d then match d_ts d with Some t => Some (SUCCESS, t) | None => None end else Some (PRECONDITION_ERROR, []).
(** Calls in memory on the object. *)
Definition sd_step {S} (kd : kind) (noop : bytes) (d : sd) (c : scall S) (s : S) : option (code * nat * sd * S) :=
  match std_step kd noop (d_db d) c s with
  | Some (cd, n, db, s') => Some (cd, n, mkD db (d_open d) (d_wr d) (d_ts d), s')
  | None => None
  end.
