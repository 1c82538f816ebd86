(** Fixed-width and variable-width integer codecs.
    Source: /repo/tkrzw_sys_config.h lines 427-560. *)
From Verif Require Import Bytes.
Open Scope N_scope.

(** WriteFixNum, tkrzw_sys_config.h:427-431.  The number is converted to
    big-endian and its low [width] bytes are copied.  The uint64_t argument is
    modelled as an N; bytes above the width are dropped as in the code. *)
Fixpoint write_fix (width : nat) (num : N) : bytes :=
  match width with
  | O => []
  | S w => write_fix w (N.shiftr num 8) ++ [N.land num 255]
  end.

(** ReadFixNum, tkrzw_sys_config.h:433-438.  Big-endian value of the first
    [width] bytes (the caller guarantees that many bytes). *)
Definition read_fix_bytes (l : bytes) : N :=
  fold_left (fun acc b => acc * 256 + b) l 0.
Definition read_fix (width : nat) (l : bytes) : N := read_fix_bytes (firstn width l).

(** One byte of WriteVarNum: ((num >> s) & 0x7f) | 0x80. *)
Definition vn_mid (num s : N) : N := N.lor (N.land (N.shiftr num s) 127) 128.
(** The first byte of a multi-byte encoding: (num >> s) | 0x80. *)
Definition vn_top (num s : N) : N := N.lor (N.shiftr num s) 128.
(** The last byte: num & 0x7f. *)
Definition vn_low (num : N) : N := N.land num 127.

(** WriteVarNum, tkrzw_sys_config.h:440-510, the ten cases of the code. *)
Definition write_var (num : N) : bytes :=
  if num <? 2^7 then [num]
  else if num <? 2^14 then [vn_top num 7; vn_low num]
  else if num <? 2^21 then [vn_top num 14; vn_mid num 7; vn_low num]
  else if num <? 2^28 then [vn_top num 21; vn_mid num 14; vn_mid num 7; vn_low num]
  else if num <? 2^35 then
    [vn_top num 28; vn_mid num 21; vn_mid num 14; vn_mid num 7; vn_low num]
  else if num <? 2^42 then
    [vn_top num 35; vn_mid num 28; vn_mid num 21; vn_mid num 14; vn_mid num 7; vn_low num]
  else if num <? 2^49 then
    [vn_top num 42; vn_mid num 35; vn_mid num 28; vn_mid num 21; vn_mid num 14; vn_mid num 7;
     vn_low num]
  else if num <? 2^56 then
    [vn_top num 49; vn_mid num 42; vn_mid num 35; vn_mid num 28; vn_mid num 21; vn_mid num 14;
     vn_mid num 7; vn_low num]
  else if num <? 2^63 then
    [vn_top num 56; vn_mid num 49; vn_mid num 42; vn_mid num 35; vn_mid num 28; vn_mid num 21;
     vn_mid num 14; vn_mid num 7; vn_low num]
  else
    [vn_top num 63; vn_mid num 56; vn_mid num 49; vn_mid num 42; vn_mid num 35; vn_mid num 28;
     vn_mid num 21; vn_mid num 14; vn_mid num 7; vn_low num].

(** Loop of ReadVarNum(buf, size, np), tkrzw_sys_config.h:512-529:
    [num = (num << 7) + (c & 0x7f)] in uint64_t arithmetic, until a byte below
    0x80; running out of bytes gives (0, 0), modelled as None. *)
Fixpoint read_var_loop (l : bytes) (num : N) (cnt : N) : option (N * N) :=
  match l with
  | [] => None
  | c :: l' =>
      let num' := (N.shiftl num 7 + N.land c 127) mod two64 in
      if 128 <=? c then read_var_loop l' num' (cnt + 1) else Some (num', cnt + 1)
  end.
(** Result: the number and the returned step. *)
Definition read_var (l : bytes) : option (N * N) := read_var_loop l 0 0.

(** Parsing form used by the readers of records: number and remaining bytes. *)
Definition get_var (l : bytes) : option (N * bytes) :=
  match read_var l with
  | Some (n, step) => Some (n, skipn (N.to_nat step) l)
  | None => None
  end.

(** SizeVarNum, tkrzw_sys_config.h:545-556. *)
Definition size_var (num : N) : N :=
  if num <? 2^7 then 1 else if num <? 2^14 then 2 else if num <? 2^21 then 3
  else if num <? 2^28 then 4 else if num <? 2^35 then 5 else if num <? 2^42 then 6
  else if num <? 2^49 then 7 else if num <? 2^56 then 8 else if num <? 2^63 then 9 else 10.
