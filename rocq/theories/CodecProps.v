(** Property C01: integer codecs. *)
From Verif Require Import Bytes CodecModel CodecProofs.
Open Scope N_scope.

(** Reading back a fixed-width number that fits the width, whatever follows. *)
Theorem C01_fixnum_roundtrip : forall (width : nat) (num : N) (rest : bytes),
  num < 256 ^ N.of_nat width -> read_fix width (write_fix width num ++ rest) = num.
Proof. exact read_write_fix. Qed.
Print Assumptions C01_fixnum_roundtrip.

(** A fixed-width encoding has exactly the given width and determines the
    number modulo 256^width (higher bytes are dropped). *)
Theorem C01_fixnum_width_and_truncation : forall (width : nat) (num : N),
  length (write_fix width num) = width /\
  read_fix_bytes (write_fix width num) = num mod 256 ^ N.of_nat width.
Proof. exact (fun w n => conj (write_fix_length w n) (read_write_fix_bytes w n)). Qed.
Print Assumptions C01_fixnum_width_and_truncation.

(** Every uint64_t survives the variable-width codec; the reader reports
    exactly the number of bytes written, whatever follows. *)
Theorem C01_varnum_roundtrip : forall (num : N) (rest : bytes),
  num < 2^64 ->
  read_var (write_var num ++ rest) = Some (num, blen (write_var num)) /\
  blen (write_var num) = size_var num.
Proof.
  exact (fun n r H => conj
    (eq_trans (read_write_var n r H) (f_equal (fun x => Some (n, x)) (eq_sym (write_var_length n))))
    (write_var_length n)).
Qed.
Print Assumptions C01_varnum_roundtrip.

(** A truncated variable-width number is never misread. *)
Theorem C01_varnum_truncated_rejected : forall (num : N) (p q : bytes),
  num < 2^64 -> write_var num = p ++ q -> q <> [] -> read_var p = None.
Proof. exact read_var_truncated. Qed.
Print Assumptions C01_varnum_truncated_rejected.

(** Both codecs emit bytes. *)
Theorem C01_bytes : forall (width : nat) (num : N),
  num < 2^64 -> bytes_ok (write_fix width num) /\ bytes_ok (write_var num).
Proof. exact (fun w n H => conj (write_fix_ok w n) (write_var_ok n H)). Qed.
Print Assumptions C01_bytes.

Example C01_example_fix : write_fix 3 66051 = [1; 2; 3] /\ read_fix 3 [1; 2; 3; 9] = 66051.
Proof. split; vm_compute; reflexivity. Qed.
Example C01_example_var :
  write_var 16384 = [129; 128; 0] /\ read_var [129; 128; 0; 77] = Some (16384, 3) /\
  read_var [129; 128] = None.
Proof. repeat split; vm_compute; reflexivity. Qed.
Example C01_example_max : read_var (write_var 18446744073709551615) = Some (18446744073709551615, 10).
Proof. vm_compute; reflexivity. Qed.
