(** Specification side of C29: plain sums and the textbook bit-by-bit CRC,
    written without reference to the model of the code. *)
From Verif Require Import Bytes.
Open Scope N_scope.

(** Sum of all bytes. *)
Definition total (l : bytes) : N := fold_right N.add 0 l.

(** Reflected CRC, one message bit at a time: shift the register right and
    subtract the generator when the bit shifted out is one. *)
Definition reg_shift (generator reg : N) : N :=
  if N.testbit reg 0 then N.lxor generator (reg / 2) else reg / 2.
Fixpoint shifts (n : nat) (generator reg : N) : N :=
  match n with O => reg | S n' => shifts n' generator (reg_shift generator reg) end.
Fixpoint bit_crc (generator : N) (l : bytes) (reg : N) : N :=
  match l with
  | [] => reg
  | b :: l' => bit_crc generator l' (shifts 8 generator (N.lxor reg b))
  end.
