(** Operation statuses.  Source: /repo/tkrzw_lib_common.h:290-640 (class Status). *)
From Verif Require Import Bytes BytesOrder.
Local Open Scope N_scope.

(** Status::Code, tkrzw_lib_common.h:300-330. *)
Inductive code := SUCCESS | UNKNOWN_ERROR | SYSTEM_ERROR | NOT_IMPLEMENTED_ERROR | PRECONDITION_ERROR
  | INVALID_ARGUMENT_ERROR | CANCELED_ERROR | NOT_FOUND_ERROR | PERMISSION_ERROR | INFEASIBLE_ERROR
  | DUPLICATION_ERROR | BROKEN_DATA_ERROR | NETWORK_ERROR | APPLICATION_ERROR.
Definition code_num (c : code) : N :=
  match c with
  | SUCCESS => 0 | UNKNOWN_ERROR => 1 | SYSTEM_ERROR => 2 | NOT_IMPLEMENTED_ERROR => 3 | PRECONDITION_ERROR => 4
  | INVALID_ARGUMENT_ERROR => 5 | CANCELED_ERROR => 6 | NOT_FOUND_ERROR => 7 | PERMISSION_ERROR => 8
  | INFEASIBLE_ERROR => 9 | DUPLICATION_ERROR => 10 | BROKEN_DATA_ERROR => 11 | NETWORK_ERROR => 12
  | APPLICATION_ERROR => 13
  end.
Definition code_eqb (a b : code) : bool := (code_num a =? code_num b).

(** The message buffer: None is nullptr; Some m is the buffer m followed by a NUL. *)
Record status := mkStatus { s_code : code; s_msg : option bytes }.
(** The C string in a buffer: what strlen counts, up to the first NUL. *)
Fixpoint cstr (m : bytes) : bytes :=
  match m with [] => [] | c :: m' => if c =? 0 then [] else c :: cstr m' end.
(** Constructors, tkrzw_lib_common.h:332-361. *)
Definition st_new (c : code) : status := mkStatus c None.
Definition st_new_msg (c : code) (m : bytes) : status := mkStatus c (Some m).
(** Copy constructor and copy assignment, tkrzw_lib_common.h:363-402: the C string is copied. *)
Definition st_copy (r : status) : status :=
  mkStatus (s_code r) (match s_msg r with None => None | Some m => Some (cstr m) end).
(** operator |= with an lvalue and with an rvalue, tkrzw_lib_common.h:425-458; the
    second component is what is left of the right operand. *)
Definition st_or (a r : status) : status :=
  if code_eqb (s_code a) SUCCESS && negb (code_eqb (s_code r) SUCCESS) then st_copy r else a.
Definition st_or_move (a r : status) : status * status :=
  if code_eqb (s_code a) SUCCESS && negb (code_eqb (s_code r) SUCCESS)
  then (mkStatus (s_code r) (s_msg r), mkStatus (s_code r) None) else (a, r).
(** GetCode, GetMessage, IsOK, operator ==. *)
Definition st_message (a : status) : bytes := match s_msg a with None => [] | Some m => cstr m end.
Definition st_ok (a : status) : bool := code_eqb (s_code a) SUCCESS.
Definition st_eqb (a b : status) : bool := code_eqb (s_code a) (s_code b).
(** operator <, tkrzw_lib_common.h:553-560: the int of strcmp is converted to
    bool, so that any difference of messages is "less". *)
Definition st_ltb (a b : status) : bool :=
  if negb (code_eqb (s_code a) (s_code b)) then code_num (s_code a) <? code_num (s_code b)
  else match bcmp (st_message a) (st_message b) with Eq => false | _ => true end.
(** What "a |= b; a |= c; ..." leaves in a. *)
Fixpoint st_or_all (a : status) (l : list status) : status :=
  match l with [] => a | b :: l' => st_or_all (st_or a b) l' end.
Fixpoint st_or_move_all (a : status) (l : list status) : status :=
  match l with [] => a | b :: l' => st_or_move_all (fst (st_or_move a b)) l' end.
Lemma code_eqb_spec a b : reflect (a = b) (code_eqb a b).
Proof. destruct a, b; constructor; (reflexivity || discriminate). Qed.
Lemma code_num_inj a b : code_num a = code_num b -> a = b.
Proof. destruct a, b; cbn; (reflexivity || discriminate). Qed.
