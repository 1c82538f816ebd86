(** The cipher of FIPS 197, stated on bytes.  A byte is a number below 256, a polynomial over GF(2) with bit i as the coefficient of x^i; a word is a list of
    four bytes; the state is a list of sixteen bytes, the byte in row r and column c at r + 4c. *)
From Coq Require Import List NArith Lia Arith Bool.
Import ListNotations.
Local Open Scope N_scope.

(** Multiplication by x and the product, modulo x^8 + x^4 + x^3 + x + 1 (4.2). *)
Definition xtime (a : N) : N := if a <? 128 then 2 * a else N.lxor (2 * a) 0x11b.
Fixpoint gmul_loop (n : nat) (a b : N) : N :=
  match n with O => 0 | S n' => N.lxor (if N.odd b then a else 0) (gmul_loop n' (xtime a) (b / 2)) end.
Definition gmul (a b : N) : N := gmul_loop 8 a b.
Fixpoint gpow (n : nat) (a : N) : N := match n with O => 1 | S n' => gmul a (gpow n' a) end.
(** The multiplicative inverse, 0 for 0: the 254th power. *)
Definition ginv (a : N) : N := gpow 254 a.
Definition rotl8 (k b : N) : N := (b * 2 ^ k) mod 256 + b / 2 ^ (8 - k).
(** SubBytes (5.1.1) and its inverse (5.3.2). *)
Definition sbox (b : N) : N :=
  let i := ginv b in N.lxor i (N.lxor (rotl8 1 i) (N.lxor (rotl8 2 i) (N.lxor (rotl8 3 i) (N.lxor (rotl8 4 i) 0x63)))).
Definition inv_sbox (c : N) : N := ginv (N.lxor (rotl8 1 c) (N.lxor (rotl8 3 c) (N.lxor (rotl8 6 c) 0x05))).

Definition xor_bytes (a b : list N) : list N := map (fun p => N.lxor (fst p) (snd p)) (combine a b).
Definition sub_bytes : list N -> list N := map sbox.
Definition inv_sub_bytes : list N -> list N := map inv_sbox.
(** ShiftRows (5.1.2): row r is rotated by r places to the left. *)
Definition shift_rows (s : list N) : list N :=
  map (fun i => nth (i mod 4 + 4 * ((i / 4 + i mod 4) mod 4)) s 0) (seq 0 16).
Definition inv_shift_rows (s : list N) : list N :=
  map (fun i => nth (i mod 4 + 4 * ((i / 4 + 4 - i mod 4) mod 4)) s 0) (seq 0 16).
(** MixColumns (5.1.3, 5.3.3): each column is multiplied by a matrix, of which every row is the one above rotated to the right. *)
Definition mul_row (m : list N) (c : list N) : N := fold_right N.lxor 0 (map (fun p => gmul (fst p) (snd p)) (combine m c)).
Definition mix_column (c : list N) : list N :=
  [mul_row [2; 3; 1; 1] c; mul_row [1; 2; 3; 1] c; mul_row [1; 1; 2; 3] c; mul_row [3; 1; 1; 2] c].
Definition inv_mix_column (c : list N) : list N :=
  [mul_row [14; 11; 13; 9] c; mul_row [9; 14; 11; 13] c; mul_row [13; 9; 14; 11] c; mul_row [11; 13; 9; 14] c].
Definition columns (s : list N) : list (list N) := map (fun c => firstn 4 (skipn (4 * c) s)) (seq 0 4).
Definition mix_columns (s : list N) : list N := flat_map mix_column (columns s).
Definition inv_mix_columns (s : list N) : list N := flat_map inv_mix_column (columns s).

(** The key expansion (5.2) of a key of nk words, nk being 4, 6 or 8. *)
Definition rot_word (w : list N) : list N := skipn 1 w ++ firstn 1 w.
Definition rcon (i : nat) : list N := [gpow (i - 1) 2; 0; 0; 0].
Definition next_word (nk : nat) (ws : list (list N)) : list N :=
  let i := length ws in
  let t := last ws [] in
  xor_bytes (nth (i - nk) ws [])
       (if Nat.eqb (i mod nk) 0 then xor_bytes (sub_bytes (rot_word t)) (rcon (i / nk))
        else if andb (Nat.ltb 6 nk) (Nat.eqb (i mod nk) 4) then sub_bytes t else t).
Fixpoint expand (nk n : nat) (ws : list (list N)) : list (list N) :=
  match n with O => ws | S n' => expand nk n' (ws ++ [next_word nk ws]) end.
Definition key_words (nk : nat) (key : list N) : list (list N) := map (fun i => firstn 4 (skipn (4 * i) key)) (seq 0 nk).
Definition rounds (nk : nat) : nat := nk + 6.
Definition key_expansion (nk : nat) (key : list N) : list (list N) :=
  expand nk (4 * (rounds nk + 1) - nk) (key_words nk key).
Definition round_key (nk : nat) (key : list N) (r : nat) : list N := concat (firstn 4 (skipn (4 * r) (key_expansion nk key))).

(** The cipher (5.1) and the inverse cipher (5.3). *)
Definition cipher (nk : nat) (key inp : list N) : list N :=
  let rk := round_key nk key in
  let s := fold_left (fun s r => xor_bytes (mix_columns (shift_rows (sub_bytes s))) (rk r)) (seq 1 (rounds nk - 1)) (xor_bytes inp (rk 0%nat)) in
  xor_bytes (shift_rows (sub_bytes s)) (rk (rounds nk)).
Definition inv_cipher (nk : nat) (key inp : list N) : list N :=
  let rk := round_key nk key in
  let s := fold_left (fun s r => inv_mix_columns (xor_bytes (inv_sub_bytes (inv_shift_rows s)) (rk r)))
                     (rev (seq 1 (rounds nk - 1))) (xor_bytes inp (rk (rounds nk))) in
  xor_bytes (inv_sub_bytes (inv_shift_rows s)) (rk 0%nat).

(** The example vectors of FIPS 197, appendix C. *)
Definition fips_plain : list N := [0x00;0x11;0x22;0x33;0x44;0x55;0x66;0x77;0x88;0x99;0xaa;0xbb;0xcc;0xdd;0xee;0xff].
Example fips_c1 : cipher 4 (map N.of_nat (seq 0 16)) fips_plain =
  [0x69;0xc4;0xe0;0xd8;0x6a;0x7b;0x04;0x30;0xd8;0xcd;0xb7;0x80;0x70;0xb4;0xc5;0x5a].
Proof. vm_compute. reflexivity. Qed.
Example fips_c2 : cipher 6 (map N.of_nat (seq 0 24)) fips_plain =
  [0xdd;0xa9;0x7c;0xa4;0x86;0x4c;0xdf;0xe0;0x6e;0xaf;0x70;0xa0;0xec;0x0d;0x71;0x91].
Proof. vm_compute. reflexivity. Qed.
Example fips_c3 : cipher 8 (map N.of_nat (seq 0 32)) fips_plain =
  [0x8e;0xa2;0xb7;0xca;0x51;0x67;0x45;0xbf;0xea;0xfc;0x49;0x90;0x4b;0x49;0x60;0x89].
Proof. vm_compute. reflexivity. Qed.
